(* Model of the accuracy asked of the quadratures: the `stepsize` argument
   computed in interactions/four_particle/__init__.py:119-163 and
   interactions/three_particle/__init__.py:63-111, and the tolerances derived
   from it in four_particle/cpp/integral.cpp:594-692 and
   three_particle/cpp/integral.cpp:521-547. gsl_integration_qag is modelled by
   its documented contract: with status 0 the result r of an integral I has
   |r - I| <= max(epsabs, epsrel |I|). Integrands sampled by the outer
   quadrature are taken to be integrable. Floats are reals. *)
From Coq Require Import Reals.
From Coquelicot Require Import Coquelicot.
From Verif Require Import Base FunctionalModel BoundsModel Integrate3Model Integrate4Model.
Open Scope R_scope.

(* four 119-124 and 163; three 63-67 and 111: `stepsize` is h, over aT with the
   linear time step, times c. In four_particle c is the constant after the
   modifiers (153-161), in three_particle it is constant_else before them. *)
Definition stepsize_of (logmode : bool) (h aT c : R) : R := (if logmode then h else h / aT) * c.
Definition stepsize4 (G_F a aT H h : R) (majorana : bool) (dof mult x : R) (logmode : bool) : R :=
  stepsize_of logmode h aT (modifiers majorana dof mult x logmode (constant4 G_F a aT H)).
Definition stepsize3 (K a aT H h : R) (logmode : bool) : R := stepsize_of logmode h aT (constant_else K a aT H).

(* four 653, three 526 *)
Definition releps : R := 1 / 100.
(* three 527 *)
Definition abseps3 (s : R) : R := releps / s.
(* four 654-663: the kinds other than F_f and F_f_vacuum_decay look the
   occupation of the first particle up, and use it if that is massless *)
Definition abseps4 (rs : nat -> participant) (k : kind) (s p0 : R) : result R :=
  match k with
  | Ff | Ff_vacuum => Ok (releps / s)
  | _ => let* f := occ (rs 0%nat) p0 in
         Ok (if Req_EM_T (mass (rs 0%nat)) 0 then releps / s * f else releps / s)
  end.

(* gsl_integration_qag returning GSL_SUCCESS *)
Definition accepted (epsabs epsrel r I : R) : Prop := Rabs (r - I) <= Rmax epsabs (epsrel * Rabs I).

(* four 542-602: what integrand_2nd_integration returns at p1. The tolerances
   are those of the outer quadrature (params.abseps, params.releps). *)
Definition inner_returned (rs : nat -> participant) (M : matrix_element) (Ms : list matrix_element) (k : kind)
    (min_2 max_2 : option R) (max_3 eps p0 p1 j : R) : Prop :=
  match p2_limits rs min_2 max_2 max_3 p0 p1 with
  | None => j = 0
  | Some (Some lo, Some hi) =>
      exists v J, (forall p2, Rmin lo hi < p2 < Rmax lo hi -> integrand4 rs M Ms k p0 p1 p2 = Ok (v p2)) /\ is_RInt v lo hi J /\
                  accepted eps releps j J
  | Some _ => False
  end.
(* four 605-698: what integration returns for the grid point p0 *)
Definition point4_returned (rs : nat -> participant) (M : matrix_element) (Ms : list matrix_element) (k : kind)
    (st : option R * option R) (min_2 max_2 : option R) (max_3 s p0 r : R) : Prop :=
  match snd (p1_step rs max_3 st p0) with
  | None => r = 0
  | Some (Some lo, Some hi) =>
      exists eps w I, abseps4 rs k s p0 = Ok eps /\
        (forall p1, Rmin lo hi < p1 < Rmax lo hi -> inner_returned rs M Ms k min_2 max_2 max_3 eps p0 p1 (w p1)) /\
        is_RInt w lo hi I /\ accepted eps releps r I
  | Some _ => False
  end.
(* three 490-551; the value at zero momentum is not a quadrature *)
Definition point3_returned (rs : nat -> participant) (k : kind) (max_2 : R) (st : R * R) (s p0 r : R) : Prop :=
  if Req_EM_T p0 0 then
    match p1_bounds_1 (masses_of rs) with
    | Some p1 => integrand3 rs k p0 p1 = Ok r
    | None => False
    end
  else match snd (p1_step3 rs max_2 st p0) with
       | None => r = 0
       | Some (lo, hi) => exists v I, (forall p1, Rmin lo hi < p1 < Rmax lo hi -> integrand3 rs k p0 p1 = Ok (v p1)) /\
                                      is_RInt v lo hi I /\ accepted (abseps3 s) releps r I
       end.

(* four_particle/__init__.py:106-205 for one grid point y, as
   Integrate4Model.contribution4: z is what the compiled code returns times
   `constant`, modifiers included *)
Definition returned4 (G_F a aT H h : R) (majorana : bool) (dof mult x : R) (logmode : bool)
    (ss : nat -> species4) (M : matrix_element) (Ms : list matrix_element) (k : kind) (min_1 max_1 min_2 max_2 max_3 y z : R) : Prop :=
  exists r, point4_returned (compiled a aT ss) (compiled_M G_F M) (map (compiled_M G_F) Ms) k (bound4 aT min_1, bound4 aT max_1)
              (bound4 aT min_2) (bound4 aT max_2) (max_3 / aT) (stepsize4 G_F a aT H h majorana dof mult x logmode) (compiled_momentum aT y) r /\
            z = r * modifiers majorana dof mult x logmode (constant4 G_F a aT H).
(* three_particle/__init__.py:56-140, a point away from zero momentum *)
Definition returned3 (K a aT H h : R) (majorana : bool) (dof mult x : R) (logmode : bool)
    (ss : nat -> species4) (k : kind) (min_1 max_1 max_2 y z : R) : Prop :=
  exists r, point3_returned (compiled a aT ss) k (max_2 / aT) (min_1 / aT, max_1 / aT) (stepsize3 K a aT H h logmode) (compiled_momentum aT y) r /\
            z = r * modifiers majorana dof mult x logmode (constant_else K a aT H).
