(* Model of UNITS and CONST (common/__init__.py:14-78). Floats are reals. Both
   are class attributes: UNITS.reset_units() assigns the units from UNITS.eV,
   CONST is evaluated once, when the module is imported. *)
From Coq Require Import Reals.
From Verif Require Import Base.
Open Scope R_scope.

(* common/__init__.py:23-36 *)
Record units := mkunits {
  eV : R; keV : R; MeV : R; GeV : R; TeV : R; sec : R; kg : R; metre : R; newton : R; K9 : R; g_cm3 : R }.
Definition reset_units (ev : R) : units :=
  let kev := ev * 10 ^ 3 in
  let mev := kev * 10 ^ 3 in
  let gev := mev * 10 ^ 3 in
  let tev := gev * 10 ^ 3 in
  mkunits ev kev mev gev tev
    (10 ^ 22 / (6582119 / 10 ^ 6) / mev)
    (10 ^ 27 / (1782662 / 10 ^ 6) * gev)
    (10 ^ 15 / (1239842 / 10 ^ 6) / gev)
    (/ 10 ^ 5 / (819 / 100) * gev ^ 2)
    (mev / (116045 / 10 ^ 4))
    (mev ^ 4 / (232011575 / 10 ^ 3)).

(* common/__init__.py:41-78, the constants with a dimension *)
Record consts := mkconsts {
  M_p : R; G : R; G_F : R; Hubble : R; f_K : R; f_eta_c : R; f_D : R; f_Ds : R; f_Ds_star : R;
  lambda_QCD : R; M_W : R; delta_m12_sq : R; delta_m13_sq : R; rate_normalization : R; MSW_constant : R }.
Definition constants (u : units) : consts :=
  let mp := 12209 / 10 ^ 4 * 10 ^ 22 * MeV u in
  let gf := 1166 / 10 ^ 3 * / 10 ^ 5 / GeV u ^ 2 in
  let mw := 80379 / 10 ^ 3 * GeV u in
  mkconsts mp (1 / mp ^ 2) gf (1 / (455 / 100 * 10 ^ 17 * sec u))
    (1556 / 10 * MeV u) (335 * MeV u) (212 * MeV u) (249 * MeV u) (315 * MeV u)
    (150 * MeV u) mw
    (737 / 100 * / 10 ^ 5 * eV u ^ 2) (256 / 100 * / 10 ^ 3 * eV u ^ 2)
    (175426 / 10 ^ 4 / MeV u ^ 5)
    (16 * (12021 / 10 ^ 4) * sqrt 2 * gf / PI / mw ^ 2).

(* the module state: import (line 38, then the class body of CONST), and what a
   program can do to it afterwards: assign UNITS.eV, call reset_units() *)
Record mstate := mkmstate { munits : units; mconsts : consts }.
Definition import_common : mstate := let u := reset_units (/ 10 ^ 9) in mkmstate u (constants u).
Inductive mop := AssignEV (ev : R) | ResetUnits.
Definition mstep (s : mstate) (o : mop) : mstate :=
  match o with
  | AssignEV ev => let u := munits s in
      mkmstate (mkunits ev (keV u) (MeV u) (GeV u) (TeV u) (sec u) (kg u) (metre u) (newton u) (K9 u) (g_cm3 u)) (mconsts s)
  | ResetUnits => mkmstate (reset_units (eV (munits s))) (mconsts s)
  end.
Definition mrun (s : mstate) (ops : list mop) : mstate := fold_left mstep ops s.
