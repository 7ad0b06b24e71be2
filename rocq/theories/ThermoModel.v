(* Model of the thermodynamic quantities: particles/RadiationParticle.py,
   DustParticle.py, IntermediateParticle.py, NonEqParticle.py, and of the
   temperature equation, evolution.py:257-303. Floats are reals; quadrature
   nodes and weights are parameters. *)
From Coq Require Import Reals.
From Verif Require Import Base IntegratorsModel ParamsModel.
Open Scope R_scope.

(* the attributes read here; eta = 1 for fermions and -1 for bosons
   (particles/__init__.py:69) *)
Record tpart := mkTpart { dof : R; tmass : R; fermion : bool }.
Definition eta (p : tpart) : R := if fermion p then 1 else -1.

(* ---- RadiationParticle.py; T is particle.T, Tp is particle.params.T ---- *)
(* 15-27 *)
Definition rad_density (p : tpart) (T : R) : R :=
  let d := T ^ 3 * dof p / PI ^ 2 * (12 / 10) in if fermion p then d * (3 / 4) else d.
(* 30-42 *)
Definition rad_energy_density (p : tpart) (T : R) : R :=
  let d := dof p * PI ^ 2 / 30 * T ^ 4 in if fermion p then d * (7 / 8) else d.
(* 45-52 *)
Definition rad_pressure (p : tpart) (T : R) : R := 1 * rad_energy_density p T / 3.
(* 55-63 *)
Definition rad_entropy (p : tpart) (T Tp : R) : R := 4 / 3 * rad_energy_density p T / Tp.
(* 68-70, 73-82 *)
Definition rad_numerator (p : tpart) : R := 0.
Definition rad_denominator (p : tpart) (aT : R) : R :=
  let d := 2 * PI ^ 2 / 15 * dof p * aT ^ 3 in if fermion p then d * (7 / 8) else d.

(* ---- DustParticle.py ---- *)
(* 11-21 *)
Definition dust_density (p : tpart) (T : R) : R := dof p * sqrt (tmass p * T / 2 / PI) ^ 3 * exp (- tmass p / T).
(* 24-30 *)
Definition dust_energy_density (p : tpart) (T : R) : R := (tmass p + 3 / 2 * T) * dust_density p T.
(* 33-39 *)
Definition dust_pressure (p : tpart) (T : R) : R := dust_density p T * T.
(* 42-50 *)
Definition dust_entropy (p : tpart) (T Tp : R) : R := (5 / 2 + tmass p / Tp) * dust_density p T.

(* ---- IntermediateParticle.py ---- *)
(* particles/__init__.py:148-159 and 161-174 (conformal mass m) *)
Definition energy (p : tpart) (k : R) : R := if Rlt_dec 0 (tmass p) then sqrt (k ^ 2 + tmass p ^ 2) else Rabs k.
Definition cenergy (p : tpart) (y m : R) : R := if Rlt_dec 0 (tmass p) then sqrt (y ^ 2 + m ^ 2) else Rabs y.
(* common/statistics.py:4-19 with mu = 0 *)
Definition occupation (p : tpart) (e : R) : R := 1 / (exp e + eta p).
(* 17-30 *)
Definition density_integrand (p : tpart) (T k : R) : R := occupation p (energy p k / T) * k ^ 2 * dof p / 2 / PI ^ 2.
Definition int_density (q : rule) (p : tpart) (T : R) : R := gaussian q (density_integrand p T) 0 (20 * T).
(* 35-57 *)
Definition energy_integrand (p : tpart) (T k : R) : R := occupation p (energy p k / T) * k ^ 2 * energy p k * dof p / 2 / PI ^ 2.
Definition int_energy_density (q : rule) (p : tpart) (T : R) : R := gaussian q (energy_integrand p T) 0 (20 * T).
(* 62-84 *)
Definition pressure_integrand (p : tpart) (T k : R) : R := occupation p (energy p k / T) * k ^ 4 / energy p k * dof p / 6 / PI ^ 2.
Definition int_pressure (q : rule) (p : tpart) (T : R) : R := gaussian q (pressure_integrand p T) 0 (20 * T).
(* 87-95 *)
Definition int_entropy (q : rule) (p : tpart) (T Tp : R) : R := (int_energy_density q p T + int_pressure q p T) / Tp.

(* 131-140: the Gauss-Legendre branch of Int; m is the conformal mass M*a *)
Definition legendre_integrand (p : tpart) (n : nat) (m aT y : R) : R :=
  y ^ n * exp (cenergy p y m / aT) / (exp (cenergy p y m / aT) + eta p) ^ 2.
Definition Int_legendre (integral : (R -> R) -> R) (p : tpart) (n : nat) (m aT : R) : R :=
  dof p / 2 / PI ^ 2 * integral (legendre_integrand p n m aT).
(* 119-130: the Gauss-Laguerre branch; gauss_laguerre.py:15-16. The exponent
   (n-1)/2 is fractional, hence Rpower (the nodes eps are positive). *)
Definition laguerre_integrand (p : tpart) (n : nat) (m aT eps : R) : R :=
  let mat := m / aT in
  (eps + mat) * Rpower (eps * (eps + 2 * mat)) ((INR n - 1) / 2) / (exp (- eps - mat) + eta p) ^ 2.
Definition Int_laguerre (q : rule) (p : tpart) (n : nat) (m aT : R) : R :=
  dof p / 2 / PI ^ 2 * aT ^ (n + 1) * exp (- (m / aT)) * rule_sum q (laguerre_integrand p n m aT).
(* 100-106 and 109-115, for any version of Int; x, mm are params.x, params.m *)
Definition int_numerator (Int2 : R) (p : tpart) (x mm aT : R) : R := tmass p ^ 2 * x / mm ^ 2 / aT * Int2.
Definition int_denominator (Int2 Int4 : R) (m aT : R) : R := (Int4 + m ^ 2 * Int2) / aT ^ 2.

(* ---- NonEqParticle.py ---- *)
(* The integrands are the same in both branches of the file (16-133 with a
   Gauss rule, 137-223 with scipy's simps); `integral` is the functional, f the
   value of particle.distribution. *)
Definition noneq_density (integral : (R -> R) -> R) (p : tpart) (f : R -> R) (a : R) : R :=
  integral (fun y => f y * y ^ 2 * dof p / 2 / PI ^ 2 / a ^ 3).
Definition noneq_energy_density (integral : (R -> R) -> R) (p : tpart) (f : R -> R) (a : R) : R :=
  integral (fun y => f y * y ^ 2 * cenergy p y (tmass p * a) * dof p / 2 / PI ^ 2 / a ^ 4).
(* simps branch: massless particles are treated separately (172-177) *)
Definition noneq_pressure (integral : (R -> R) -> R) (p : tpart) (f : R -> R) (a : R) : R :=
  if Req_EM_T (tmass p) 0 then integral (fun y => f y * y ^ 3 * dof p / 6 / PI ^ 2 / a ^ 4)
  else integral (fun y => f y * y ^ 4 / cenergy p y (tmass p * a) * dof p / 6 / PI ^ 2 / a ^ 4).
(* 48-62: the other branch has no such case *)
Definition noneq_pressure_gauss (integral : (R -> R) -> R) (p : tpart) (f : R -> R) (a : R) : R :=
  integral (fun y => f y * y ^ 4 / cenergy p y (tmass p * a) * dof p / 6 / PI ^ 2 / a ^ 4).
(* 106-121, 204-210: coll is particle.collision_integral *)
Definition noneq_numerator (integral : (R -> R) -> R) (p : tpart) (coll : R -> R) (a x : R) : R :=
  integral (fun y => - 1 * dof p / 2 / PI ^ 2 * y ^ 2 * cenergy p y (tmass p * a) * coll y / x).
(* 124-133 *)
Definition noneq_denominator : R := 0.

(* evolution.py:257-303: log mode multiplies by x. A zero denominator raises
   ZeroDivisionError for Python floats. *)
Definition fraction (logmode : bool) (x num den : R) : result R :=
  if Req_EM_T den 0 then Raise ZeroDivisionError
  else Ok (if logmode then x * num / den else num / den).

(* 257-267, 371-375: sums over universe.particles *)
Definition total {A} (f : A -> R) (ps : list A) : R := fold_right (fun p acc => f p + acc) 0 ps.

(* ---- universe of massless equilibrium species ---- *)
(* One make_step (evolution.py:181-195, with Adams-Bashforth): the particles
   are updated first, with the temperature aT/a of the old parameters
   (particles/__init__.py:221-226), and the densities they then have are passed
   to params.update. hist is the recorded column 'fraction'; the new value is
   appended to it by the driver (evolution.py:133-140). *)
Definition radiation_step (logmode : bool) (ps : list tpart) (st : params * list R) : result (params * list R) :=
  let (p, hist) := st in
  let T := paT p / pa p in
  let rho := total (fun s => rad_energy_density s T) ps in
  let ent := total (fun s => rad_entropy s T (pT p)) ps in
  let* fr := fraction logmode (px p) (total rad_numerator ps) (total (fun s => rad_denominator s (paT p)) ps) in
  let* inc := make_step_increment hist fr (ph p) in
  Ok (pstep logmode p (MakeStep inc rho ent), hist ++ [fr]).
Fixpoint radiation_run (logmode : bool) (ps : list tpart) (n : nat) (st : params * list R) : result (params * list R) :=
  match n with
  | O => Ok st
  | S k => let* st' := radiation_run logmode ps k st in radiation_step logmode ps st'
  end.
