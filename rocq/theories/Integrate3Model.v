(* Model of the prefactors of ThreeParticleIntegral.integrate
   (interactions/three_particle/__init__.py:57-140): the quantities handed to the
   compiled integral and the constants its result is multiplied with. Floats are
   reals; GSL's quadrature is the Riemann integral of the integrand, whose value
   at the two end points does not matter. Cut-offs and return shapes are in
   KinemModel, kinds in FunctionalModel. *)
From Coq Require Import Reals.
From Coquelicot Require Import Coquelicot.
From Verif Require Import Base FunctionalModel BoundsModel.
Open Scope R_scope.

(* 70-88: the compiled reaction has masses conformal_mass / aT, where
   conformal_mass = mass * params.a (particles/__init__.py); the momenta are
   ps / aT with ps the conformal grid *)
Definition compiled_mass (a aT m : R) : R := m * a / aT.
Definition compiled_momentum (aT y : R) : R := y / aT.

(* 88-97. K = sum of M.K *)
Definition constant_0 (K a aT H m : R) : R := if Req_EM_T m 0 then 0 else K * aT / a / 8 / PI / H / m ^ 2.
Definition constant_else (K a aT H : R) : R := K * a / aT / 32 / PI / H.
(* 99-109; mult = CollisionMultiplier3p, logmode = LOGARITHMIC_TIMESTEP *)
Definition modifiers (majorana : bool) (dof mult x : R) (logmode : bool) (c : R) : R :=
  let c := if majorana then c / dof else c / (dof / 2) in
  let c := c * mult in
  if logmode then c else c / x.
(* 97: numpy.append(constant_0, numpy.repeat(constant_else, len(ps) - 1)); a
   negative count raises ValueError *)
Definition constants3 (K a aT H m : R) (majorana : bool) (dof mult x : R) (logmode : bool) (n : nat) : result (list R) :=
  match n with
  | O => Raise ValueError
  | S n' => Ok (map (modifiers majorana dof mult x logmode) (constant_0 K a aT H m :: repeat (constant_else K a aT H) n'))
  end.

(* three_particle/cpp/integral.cpp:490-551: `I` is the value of the grid point p0 *)
Definition point3_is (rs : nat -> participant) (k : kind) (max_2 : R) (st : R * R) (p0 I : R) : Prop :=
  if Req_EM_T p0 0 then
    match p1_bounds_1 (masses_of rs) with
    | Some p1 => integrand3 rs k p0 p1 = Ok I
    | None => False                 (* a NaN *)
    end
  else match snd (p1_step3 rs max_2 st p0) with
       | None => I = 0
       | Some (lo, hi) => exists v, (forall p1, Rmin lo hi < p1 < Rmax lo hi -> integrand3 rs k p0 p1 = Ok (v p1)) /\ is_RInt v lo hi I
       end.
(* 117-140: the integrals of the points times the constants, element by element *)
Fixpoint multiply (l c : list R) : list R :=
  match l, c with x :: l', y :: c' => x * y :: multiply l' c' | _, _ => [] end.
