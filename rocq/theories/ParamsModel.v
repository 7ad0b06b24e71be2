(* Model of common.Params (common/__init__.py:81-203) and of
   Universe.QCD_transition (evolution.py:377-404). Floats are reals. *)
From Coq Require Import Reals.
From Verif Require Import Base.
Open Scope R_scope.

(* common/__init__.py:14-36: eV = 1e-9, MeV = eV*1e3*1e3; 45-48: M_p, G *)
Definition eV : R := / 10 ^ 9.
Definition MeV : R := eV * 1000 * 1000.
Definition M_p : R := 12209 / 10000 * 10 ^ 22 * MeV.
Definition G : R := 1 / M_p ^ 2.

(* A keyword argument: absent, explicitly None, or a number. *)
Inductive kw := Absent | PNone | Val (r : R).

(* common/__init__.py:83-96: attributes. rho is None until the first update. *)
Record params := mkparams {
  pa : R; pT : R; pm : R; pt : R; pH : R; prho : option R; pNeff : R; pS : R;
  px : R; pdx : R; pdy : option R; ph : R; paT : R }.

Section Mode.
Variable logmode : bool.     (* environment.get('LOGARITHMIC_TIMESTEP') *)

(* common/__init__.py:98-148 (constructor and infer). T is compared/divided as
   a Python float: division by zero raises ZeroDivisionError, None raises
   TypeError. y = log(a) (138-139) is never read again and is not modelled. *)
Definition params_init (kT km kdx kdy : kw) : result params :=
  match (match km with Absent => Some (1 * MeV) | PNone => None | Val r => Some r end), kT with
  | None, _ => Raise TypeError                              (* 124: m is None *)
  | Some _, Absent | Some _, PNone => Raise TypeError       (* 124: 1*m/None *)
  | Some m, Val T =>
      if Req_EM_T T 0 then Raise ZeroDivisionError else
      let a := 1 * m / T in
      let x := a * m in
      let aT := a * T in
      let dx0 := match kdx with Absent => Some (5 / 1000 * MeV) | PNone => None | Val r => Some r end in
      let dy0 := match kdy with Absent => Some (5 / 100) | PNone => None | Val r => Some r end in
      if logmode then
        match dy0 with
        | None => Raise TypeError                           (* 143: x * None *)
        | Some dy =>
            let st := mkparams a T m 0 0 None 0 0 x (x * dy) (Some dy) dy aT in
            match kdy with                                  (* 128 *)
            | Val r => if Req_EM_T r 0 then Raise GenericException else Ok st
            | _ => Raise GenericException
            end
        end
      else
        match kdx with                                      (* 130 *)
        | Val r => if Req_EM_T r 0 then Raise GenericException
                   else Ok (mkparams a T m 0 0 None 0 0 x r None r aT)
        | _ => Raise GenericException
        end
  end.

(* common/__init__.py:165-203. numpy: sqrt of a negative number is NaN and a
   division by zero is inf/NaN; the theorems assume rho > 0 so neither occurs. *)
Definition params_update (p : params) (rho ent : R) : params :=
  let dx := if logmode then match pdy p with Some dy => px p * dy | None => pdx p end else pdx p in
  let H := sqrt (8 / 3 * PI * rho) / M_p in
  let Neff := (rho - PI ^ 2 / 15 * pT p ^ 4) / (7 / 8 * PI ^ 2 / 15 * (pT p / (1401 / 1000)) ^ 4) in
  let a' := px p / pm p in
  let T' := paT p / a' in
  let dt := (1 - pa p / a') / H in
  mkparams a' T' (pm p) (pt p + dt) H (Some rho) Neff ent (px p) dx (pdy p) (ph p) (paT p).

(* The two ways the driver changes the state before calling update:
   evolution.py:181-195 (make_step: aT += increment; x += dx; update) and
   392-395 (QCD_transition: aT := value; update); 127 (evolve: update only) is
   the latter with the old aT. The increment, rho and S come from the particle
   physics and are arbitrary here. *)
Inductive pop := MakeStep (daT rho ent : R) | SetAT (aT rho ent : R).
Definition pstep (p : params) (o : pop) : params :=
  match o with
  | MakeStep daT rho ent =>
      params_update (mkparams (pa p) (pT p) (pm p) (pt p) (pH p) (prho p) (pNeff p) (pS p)
                       (px p + pdx p) (pdx p) (pdy p) (ph p) (paT p + daT)) rho ent
  | SetAT aT rho ent =>
      params_update (mkparams (pa p) (pT p) (pm p) (pt p) (pH p) (prho p) (pNeff p) (pS p)
                       (px p) (pdx p) (pdy p) (ph p) aT) rho ent
  end.
Definition prun (p : params) (ops : list pop) : params := fold_left pstep ops p.

(* common/__init__.py:150-152 *)
Definition init_time (rho : R) : R := sqrt (3 / (32 * PI * G * rho)).
End Mode.

(* ------------------------------------------------------------------ *)
(* particles/RadiationParticle.py: energy density of a massless species,
   dof * pi^2/30 * T^4, times 7/8 for fermions (see ThermoModel) *)
Definition rad_rho (dof : R) (fermion : bool) (T : R) : R :=
  (dof * PI ^ 2 / 30 * T ^ 4) * (if fermion then 7 / 8 else 1).

(* ------------------------------------------------------------------ *)
(* QCD transition *)
Record qpart := mkqpart { qname : string; qmass : R; qdof : R; qfermion : bool; qineq : bool }.

(* common/__init__.py:155-163 *)
Fixpoint entropic_dof (T : R) (ps : list qpart) : R :=
  match ps with
  | [] => 0
  | p :: r => (if Rlt_dec (qmass p) T then
                 if qineq p then (if qfermion p then qdof p * 7 / 8 else qdof p) else 0
               else 0) + entropic_dof T r
  end.

Definition qcd_names : list string :=
  ["Up quark"; "Down quark"; "Charm quark"; "Strange quark"; "Top quark"; "Bottom quark"; "Gluon"]%string.

Section QCD.
(* utils.particle_orderer, evolution.py:205; see ReactionsModel for its model *)
Variable orderer : list qpart -> list qpart.

(* evolution.py:377-392 up to the new aT: history = the recorded aT column;
   hadrons=None makes add_particles raise TypeError; data['aT'][-1] on an empty
   column raises IndexError; division by dof_after = 0 raises
   ZeroDivisionError. Returns (new aT, new particle list, new history). *)
Definition qcd_aT (T : R) (ps : list qpart) (hist : list R) (hadrons : option (list qpart))
  : result (R * list qpart * list R) :=
  let hist' := removelast hist in
  let before := entropic_dof T ps in
  let kept := filter (fun p => negb (existsb (String.eqb (qname p)) qcd_names)) ps in
  match hadrons with
  | None => Raise TypeError
  | Some hs =>
      let ps' := orderer (kept ++ hs) in
      let after := entropic_dof T ps' in
      match rev hist' with
      | [] => Raise IndexError
      | aTl :: _ =>
          if Req_EM_T after 0 then Raise ZeroDivisionError
          else Ok (aTl * Rpower (before / after) (1 / 3), ps', hist')
      end
  end.
End QCD.
