(* Model of the units and prefactors of FourParticleIntegral.integrate
   (interactions/four_particle/__init__.py:106-205) and of the nested integral of
   one grid point (interactions/four_particle/cpp/integral.cpp:542-698). Floats
   are reals; GSL's quadratures are Riemann integrals of the integrand, whose
   value at the end points does not matter. The kinds are in FunctionalModel,
   cut-offs and return shapes in KinemModel. *)
From Coq Require Import Reals.
From Coquelicot Require Import Coquelicot.
From Verif Require Import Base FunctionalModel GridsModel BoundsModel Integrate3Model.
Open Scope R_scope.

(* What is read from a participant of the reaction: item.side, and of its specie
   the mass, TEMPLATE, _distribution, eta, in_equilibrium and aT *)
Record species4 := mkSpecies { s_side : Z; s_mass : R; s_grid : list R; s_dist : list R; s_eta : R; s_ineq : bool; s_aT : R }.
(* 129-145: particle_t(m=conformal_mass / aT, grid / aT, eta, T=specie.aT / aT);
   conformal_mass = mass * params.a. The compiled code reads occupations with
   distribution_interpolation. *)
Definition compiled_leg (s : species4) : leg := mkLeg (s_side s) (s_eta s).
Definition compiled (a aT : R) (ss : nat -> species4) (n : nat) : participant :=
  let s := ss n in
  mkParticipant (compiled_mass a aT (s_mass s)) (compiled_leg s)
    (fun p => distribution_interpolation (map (fun g => g / aT) (s_grid s)) (s_dist s) p (compiled_mass a aT (s_mass s)) (s_eta s) (s_aT s / aT) (s_ineq s)).
(* 114-120: MIN_MOMENTUM and MAX_MOMENTUM of the grids, over aT *)
Definition bound4 (aT y : R) : option R := Some (y / aT).

(* 149-151: unit = 32 G_F^2, constant before the modifiers of
   Integrate3Model.modifiers (153-161, the same statements) *)
Definition unit4 (G_F : R) : R := 32 * G_F ^ 2.
Definition constant4 (G_F a aT H : R) : R := unit4 G_F * (aT / a) ^ 5 / 64 / PI ^ 3 / H.
(* 165-166 *)
Definition compiled_M (G_F : R) (M : matrix_element) : matrix_element :=
  mkM (order M) (K1 M / unit4 G_F) (K2 M / unit4 G_F) (K M / unit4 G_F).

(* integral.cpp:542-602: J is the value of the inner integral at p1. A limit that
   is NaN gives no value. *)
Definition inner_is (rs : nat -> participant) (M : matrix_element) (Ms : list matrix_element) (k : kind)
    (min_2 max_2 : option R) (max_3 p0 p1 J : R) : Prop :=
  match p2_limits rs min_2 max_2 max_3 p0 p1 with
  | None => J = 0
  | Some (Some lo, Some hi) =>
      exists v, (forall p2, Rmin lo hi < p2 < Rmax lo hi -> integrand4 rs M Ms k p0 p1 p2 = Ok (v p2)) /\ is_RInt v lo hi J
  | Some _ => False
  end.
(* 605-698: I is the value of the grid point p0; `st` are the thread's min_1 and
   max_1 before the iteration *)
Definition point4_is (rs : nat -> participant) (M : matrix_element) (Ms : list matrix_element) (k : kind)
    (st : option R * option R) (min_2 max_2 : option R) (max_3 p0 I : R) : Prop :=
  match snd (p1_step rs max_3 st p0) with
  | None => I = 0
  | Some (Some lo, Some hi) =>
      exists w, (forall p1, Rmin lo hi < p1 < Rmax lo hi -> inner_is rs M Ms k min_2 max_2 max_3 p0 p1 (w p1)) /\ is_RInt w lo hi I
  | Some _ => False
  end.

(* four_particle/__init__.py:106-182 for one grid point y (conformal momentum):
   x is the integral times `constant`, before modifiers. bounds: 112-118. *)
Definition contribution4 (G_F a aT H : R) (ss : nat -> species4) (M : matrix_element) (Ms : list matrix_element) (k : kind)
    (min_1 max_1 min_2 max_2 max_3 y x : R) : Prop :=
  exists I, point4_is (compiled a aT ss) (compiled_M G_F M) (map (compiled_M G_F) Ms) k (bound4 aT min_1, bound4 aT max_1)
              (bound4 aT min_2) (bound4 aT max_2) (max_3 / aT) (compiled_momentum aT y) I /\ x = I * constant4 G_F a aT H.
(* three_particle/__init__.py:56-121 in the same way; the compiled reaction is
   built by the same statements (70-85) *)
Definition contribution3 (K a aT H : R) (ss : nat -> species4) (k : kind) (min_1 max_1 max_2 y x : R) : Prop :=
  exists I, point3_is (compiled a aT ss) k (max_2 / aT) (min_1 / aT, max_1 / aT) (compiled_momentum aT y) I /\
            x = I * (if Req_EM_T y 0 then constant_0 K a aT H (s_mass (ss 0%nat)) else constant_else K a aT H).
