(* Model of the age recorded along a run: evolution.py:126-131 (initial time and
   first update in evolve) and the steps of make_step (181-195), which pass to
   Params.update the energy densities that the species computed at the start of
   the step: AbstractParticle.populate_methods (particles/__init__.py:106-113)
   stores numbers, and only update(), at the start of the step, calls it again.
   Floats are reals. *)
From Coq Require Import Reals.
From Verif Require Import Base ParamsModel ThermoModel.
Open Scope R_scope.

(* evolution.py:127: params.t = init_time(rho) *)
Definition with_time (p : params) (t : R) : params :=
  mkparams (pa p) (pT p) (pm p) t (pH p) (prho p) (pNeff p) (pS p) (px p) (pdx p) (pdy p) (ph p) (paT p).
(* evolution.py:126-131 with init_time=True and params.rho still None *)
Definition evolve_begin (logmode : bool) (rho ent : R) (p : params) : params :=
  params_update logmode (with_time p (init_time rho)) rho ent.
(* the same for massless species in equilibrium *)
Definition radiation_begin (logmode : bool) (ps : list tpart) (p : params) : params :=
  evolve_begin logmode (total (fun s => rad_energy_density s (paT p / pa p)) ps)
               (total (fun s => rad_entropy s (paT p / pa p) (pT p)) ps) p.
(* one make_step with any increment of aT: rho and ent give the densities of the
   species in the state the step starts from *)
Definition timed_step (logmode : bool) (rho ent : params -> R) (p : params) (daT : R) : params :=
  pstep logmode p (MakeStep daT (rho p) (ent p)).
Definition timed_run (logmode : bool) (rho ent : params -> R) (p : params) (daTs : list R) : params :=
  fold_left (timed_step logmode rho ent) daTs p.
