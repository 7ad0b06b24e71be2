(* The values shown by the particle monitors of plotting.py:200-385. A monitor
   reads a particle (its energy density rho, number density n, aT and
   distribution on its grid) and the parameters a and T; the axes and the
   drawing are in PlotModel. Floats are reals. *)
From Coq Require Import Reals.
From Verif Require Import Base ThermoModel.
Open Scope R_scope.

(* the energy density of radiation at temperature 1: 219-220, 246-247, 260-263 *)
Definition mconst (p : tpart) : R := dof p * PI ^ 2 / 30 * (if fermion p then 7 / 8 else 1).
(* particle.equilibrium_distribution(aT=aT), particles/__init__.py:376-395 on
   the grid; conf_mass is M*a *)
Definition feq (p : tpart) (a aT : R) (grid : list R) : list R :=
  map (fun y => 1 / (exp (cenergy p y (tmass p * a) / aT) + eta p)) grid.

(* 214-224: what RadiationParticleMonitor compares with; paT is particle.aT *)
Definition rad_compare (p : tpart) (rho a paT : R) (grid : list R) : R * list R :=
  (rho / (dof p * PI ^ 2 / 30 * (paT / a) ^ 4 * (if fermion p then 7 / 8 else 1)), feq p a paT grid).
(* 241-253: EquilibriumRadiationParticleMonitor; T and aT are the parameters' *)
Definition eq_compare (p : tpart) (rho T a aT : R) (grid : list R) : R * list R :=
  (rho / (dof p * PI ^ 2 / 30 * T ^ 4 * (if fermion p then 7 / 8 else 1)), feq p a aT grid).
(* 257-274: EffectiveTemperatureRadiationPartileMonitor; the first component is
   the temperature written into the title *)
Definition T_eff (p : tpart) (rho : R) : R := Rpower (rho / mconst p) (1 / 4).
Definition eff_compare (p : tpart) (rho a paT : R) (grid : list R) : R * list R :=
  (rho / mconst p / (paT / a) ^ 4, feq p a (T_eff p rho * a) grid).
(* 226-237: plot of all three: the point of the first and the curve of the
   second plot; f is particle.distribution on the grid *)
Definition rad_plot (in_eq : bool) (f : list R) (cmp : R * list R) : R * list R :=
  if in_eq then (1, map (fun _ => 1) f)
  else (fst cmp, map (fun q => fst q / snd q) (combine f (snd cmp))).

(* 293-310: MassiveParticleMonitor. A zero mass or density raises for Python
   floats (numpy floats give inf or nan with a warning); grid in MeV *)
Definition massive_point (p : tpart) (rho n : R) : result R :=
  if Req_EM_T (tmass p * n) 0 then Raise ZeroDivisionError else Ok (rho / (tmass p * n)).
Definition massive_curve (p : tpart) (a aT MeV : R) (f grid : list R) : list R :=
  map (fun q => fst q * fst q / MeV ^ 2 * (fst (snd q) - snd (snd q))) (combine grid (combine f (feq p a aT grid))).

(* 324-330: EquilibrationMonitor *)
Definition max_abs (l : list R) : R := fold_right (fun x acc => Rmax (Rabs x) acc) 0 l.
Definition equilibration_point (coll : list R) (MeV : R) : R := max_abs coll * MeV.

(* 350-358: AbundanceMonitor; total_rho is the last recorded rho *)
Definition abundance (rho total_rho n a MeV : R) : result (R * R) :=
  if Req_EM_T total_rho 0 then Raise ZeroDivisionError else Ok (rho / total_rho, n * a ^ 3 / MeV ^ 3).
(* 376-383: DensityAndEnergyMonitor *)
Definition comoving (rho n a MeV : R) : R * R := (rho * a ^ 4 / MeV ^ 4, n * a ^ 3 / MeV ^ 3).
