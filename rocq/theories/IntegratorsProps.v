(* C29-C37: time steppers and fixed-order quadrature. *)
From Coq Require Import Reals Lra Permutation.
From Verif Require Import Base Poly IntegratorsModel IntegratorsProofs.
Open Scope R_scope.

(* C29: after evolve's initial save_params the fraction column is [0]. *)
Theorem C29_first_step_is_euler_refuted :
  exists f h v, make_step_increment [0] f h = Ok v /\ v <> h * f.
Proof. exists 1, 1. eexists. split; [apply first_step|]. lra. Qed.
Print Assumptions C29_first_step_is_euler_refuted.
Theorem C29_first_step_is_three_halves_euler :
  forall f h, make_step_increment [0] f h = Ok (3 / 2 * (h * f)).
Proof. exact first_step. Qed.
Print Assumptions C29_first_step_is_three_halves_euler.
Example C29_ex : make_step_increment [0] 4 (1/2) = Ok 3.
Proof. rewrite first_step. f_equal. lra. Qed.

(* C30 *)
Theorem C30_adams_bashforth_exact :
  forall (k : nat) (cs : list R) (Y : R -> R) (pre : list R) (t h : R),
  (1 <= k <= 5)%nat -> (length cs <= k)%nat ->
  (forall s, derivable_pt_lim Y s (peval cs s)) ->
  adams_bashforth (pre ++ samples (peval cs) t h k) h (Some (Z.of_nat k)) = Ok (Y (t + h) - Y t).
Proof. exact ab_exact. Qed.
Print Assumptions C30_adams_bashforth_exact.
Theorem C30_adams_bashforth_exact_auto :
  forall (n : nat) (cs : list R) (Y : R -> R) (t h : R),
  (1 <= n)%nat -> (length cs <= Nat.min 5 n)%nat ->
  (forall s, derivable_pt_lim Y s (peval cs s)) ->
  adams_bashforth (samples (peval cs) t h n) h None = Ok (Y (t + h) - Y t).
Proof. exact ab_exact_auto. Qed.
Print Assumptions C30_adams_bashforth_exact_auto.
Theorem C30_adams_bashforth_not_exact_at_order :
  forall (k : nat) (h : R), (1 <= k <= 5)%nat -> h <> 0 ->
  exists v, adams_bashforth (samples (fun s => s ^ k) 0 h k) h (Some (Z.of_nat k)) = Ok v /\
            v <> h ^ S k / INR (S k) - 0 ^ S k / INR (S k).
Proof. exact ab_not_exact. Qed.
Print Assumptions C30_adams_bashforth_not_exact_at_order.
Example C30_ex :   (* y' = 1 + 2 t, solution t + t^2 *)
  (forall s, derivable_pt_lim (pint [1; 2]) s (peval [1; 2] s)) /\
  adams_bashforth (samples (peval [1; 2]) 1 1 2) 1 None = Ok (pint [1; 2] (1 + 1) - pint [1; 2] 1) /\
  pint [1; 2] (1 + 1) - pint [1; 2] 1 = 4.
Proof.
  split; [apply pint_deriv|]. split.
  - apply ab_exact_auto; [lia|simpl; lia|apply pint_deriv].
  - unfold pint. simpl. field.
Qed.

(* C31 *)
Theorem C31_adams_bashforth_argument_checking :
  forall fs h order,
  let o := match order with Some o => o | None => Z.min 5 (Z.of_nat (length fs)) end in
  (adams_bashforth fs h order = Raise KeyError <-> ~ (1 <= o <= 5)%Z) /\
  (adams_bashforth fs h order = Raise AssertionError <-> (1 <= o <= 5)%Z /\ (Z.of_nat (length fs) < o)%Z) /\
  ((exists v, adams_bashforth fs h order = Ok v) <-> (1 <= o <= 5)%Z /\ (o <= Z.of_nat (length fs))%Z).
Proof. exact ab_errors. Qed.
Print Assumptions C31_adams_bashforth_argument_checking.
Theorem C31_only_last_derivatives_matter :
  forall fs fs' h o, (1 <= o <= 5)%Z ->
  (o <= Z.of_nat (length fs))%Z -> (o <= Z.of_nat (length fs'))%Z ->
  skipn (length fs - Z.to_nat o) fs = skipn (length fs' - Z.to_nat o) fs' ->
  adams_bashforth fs h (Some o) = adams_bashforth fs' h (Some o).
Proof. exact ab_local. Qed.
Print Assumptions C31_only_last_derivatives_matter.
Example C31_ex : adams_bashforth [] 1 None = Raise KeyError /\
  adams_bashforth [1] 1 (Some 2%Z) = Raise AssertionError /\ adams_bashforth [1; 2] 1 (Some (-1)%Z) = Raise KeyError.
Proof. repeat split. Qed.

(* C32 *)
Theorem C32_adams_moulton_implicit_equation :
  forall pre l y A B h (k : nat) bs d v,
  AM_coefficients (Z.of_nat k) = Some (bs, d) -> length l = (k - 1)%nat ->
  (2 <= k)%nat \/ pre = [] -> 1 - h * B * last bs 0 / d <> 0 ->
  adams_moulton y (pre ++ l) A B h (Some (Z.of_nat k)) = Ok v ->
  v = y + h * zipdot bs (l ++ [A + B * v]) / d.
Proof. exact am_implicit. Qed.
Print Assumptions C32_adams_moulton_implicit_equation.
Theorem C32_adams_moulton_exact :
  forall (k : nat) (cs : list R) (Y : R -> R) (pre : list R) (t h : R),
  (1 <= k <= 5)%nat -> (length cs <= k)%nat -> (2 <= k)%nat \/ pre = [] ->
  (forall s, derivable_pt_lim Y s (peval cs s)) ->
  adams_moulton (Y t) (pre ++ samples (peval cs) t h (k - 1)) (peval cs (t + h)) 0 h (Some (Z.of_nat k))
    = Ok (Y (t + h)).
Proof. exact am_exact. Qed.
Print Assumptions C32_adams_moulton_exact.
Theorem C32_adams_moulton_automatic_order :
  forall pre l y A B h, (S (length l) = Nat.min 5 (length (pre ++ l) + 1))%nat ->
  adams_moulton y (pre ++ l) A B h None = adams_moulton y (pre ++ l) A B h (Some (Z.of_nat (S (length l)))).
Proof. exact am_default. Qed.
Print Assumptions C32_adams_moulton_automatic_order.
Example C32_ex : adams_moulton 1 [1] 3 0 2 (Some 2%Z) = Ok 5.
Proof.
  pose proof (am_value [] [1] 1 3 0 2 2 [1; 1] 2 eq_refl eq_refl (or_intror eq_refl)) as E.
  cbn [app] in E. change (Z.of_nat 2) with 2%Z in E. rewrite E. f_equal. simpl. field.
Qed.

(* C33 *)
Theorem C33_adams_moulton_accepts_every_order_refuted :
  exists fs, (1 - 1 <= length fs)%nat /\
  forall y A B h, adams_moulton y fs A B h (Some 1%Z) = Raise AssertionError.
Proof. exists [1]. split; [simpl; lia|]. intros. apply am_order1. Qed.
Print Assumptions C33_adams_moulton_accepts_every_order_refuted.
Theorem C33_order_one_always_fails_with_history :
  forall y f fs A B h, adams_moulton y (f :: fs) A B h (Some 1%Z) = Raise AssertionError.
Proof. exact am_order1. Qed.
Print Assumptions C33_order_one_always_fails_with_history.
Theorem C33_orders_two_to_five_accepted :
  forall y fs A B h (k : nat), (2 <= k <= 5)%nat -> (k - 1 <= length fs)%nat ->
  exists v, adams_moulton y fs A B h (Some (Z.of_nat k)) = Ok v.
Proof. exact am_order_ge2. Qed.
Print Assumptions C33_orders_two_to_five_accepted.
Example C33_ex : adams_moulton 1 [2; 3] 1 0 1 (Some 1%Z) = Raise AssertionError.
Proof. apply am_order1. Qed.

(* C34 *)
Theorem C34_implicit_euler_solves_and_unique :
  forall y t A B h, B * h <> 1 ->
  let v := implicit_euler y t A B h in
  v = y + h * (A + B * v) /\ (forall v', v' = y + h * (A + B * v') -> v' = v).
Proof. exact implicit_euler_solves. Qed.
Print Assumptions C34_implicit_euler_solves_and_unique.
Theorem C34_implicit_euler_nonnegative_and_damped :
  forall y t A B h, 0 <= h -> 0 <= A -> B <= 0 -> 0 <= y ->
  0 <= implicit_euler y t A B h <= y + A * h.
Proof. exact implicit_euler_sign. Qed.
Print Assumptions C34_implicit_euler_nonnegative_and_damped.
Example C34_ex : implicit_euler 1 0 1 (-1) 1 = 1 /\ (-1) * 1 <> 1.
Proof. unfold implicit_euler. split; lra. Qed.

(* C35 *)
Theorem C35_euler_exact_for_constants :
  forall c y t h, euler_correction y t (fun _ _ => c) h = c * (t + h) - c * t.
Proof. exact euler_exact_const. Qed.
Print Assumptions C35_euler_exact_for_constants.
Theorem C35_heun_exact_for_affine :
  forall c d y t h, heun_correction y t (fun s _ => c + d * s) h =
    (c * (t + h) + d * (t + h) ^ 2 / 2) - (c * t + d * t ^ 2 / 2).
Proof. exact heun_exact_affine. Qed.
Print Assumptions C35_heun_exact_for_affine.
Theorem C35_heun_second_order_for_linear_ode :
  forall L y t h, y + heun_correction y t (fun _ u => L * u) h = y * (1 + h * L + (h * L) ^ 2 / 2).
Proof. exact heun_linear_ode. Qed.
Print Assumptions C35_heun_second_order_for_linear_ode.
Example C35_ex : heun_correction 0 1 (fun s _ => 1 + 2 * s) 1 = 4.
Proof. rewrite heun_exact_affine. field. Qed.

(* C36 *)
Theorem C36_quadrature_linear :
  forall q f g a b c d,
  gaussian q (fun x => c * f x + d * g x) a b = c * gaussian q f a b + d * gaussian q g a b.
Proof. exact gaussian_linear. Qed.
Print Assumptions C36_quadrature_linear.
Theorem C36_quadrature_empty_interval : forall q f a, gaussian q f a a = 0.
Proof. exact gaussian_point. Qed.
Print Assumptions C36_quadrature_empty_interval.
Theorem C36_quadrature_antisymmetric :
  forall q f a b, Permutation (map (fun nw => (- fst nw, snd nw)) q) q ->
  gaussian q f b a = - gaussian q f a b.
Proof. exact gaussian_swap. Qed.
Print Assumptions C36_quadrature_antisymmetric.
Theorem C36_quadrature_affine_substitution :
  forall q f a b c d, gaussian q f (c * a + d) (c * b + d) = gaussian q (fun x => c * f (c * x + d)) a b.
Proof. exact gaussian_affine. Qed.
Print Assumptions C36_quadrature_affine_substitution.
Theorem C36_quadrature_exact_on_polynomials :
  forall q cs (F : R -> R) deg a b,
  (length cs <= S deg)%nat ->
  (forall j, (j <= deg)%nat -> rule_sum q (fun x => x ^ j) = 1 ^ S j / INR (S j) - (-1) ^ S j / INR (S j)) ->
  (forall t, derivable_pt_lim F t (peval cs t)) ->
  gaussian q (peval cs) a b = F b - F a.
Proof. exact gaussian_exact. Qed.
Print Assumptions C36_quadrature_exact_on_polynomials.
Theorem C36_quadrature_nonnegative :
  forall q f a b, Forall (fun nw => 0 <= snd nw) q -> (forall x, 0 <= f x) -> a <= b -> 0 <= gaussian q f a b.
Proof. exact gaussian_nonneg. Qed.
Print Assumptions C36_quadrature_nonnegative.
Example C36_ex : moments gl2 3 /\ Permutation (mirror gl2) gl2.
Proof. split; [exact gl2_moments|exact gl2_symmetric]. Qed.

(* C37 *)
Theorem C37_double_is_iterated :
  forall q f a b g h,
  double_gaussian q f a b g h = gaussian q (fun x => gaussian q (f x) (g x) (h x)) a b.
Proof. exact double_gaussian_iterated. Qed.
Print Assumptions C37_double_is_iterated.
Theorem C37_paired_is_componentwise :
  forall q fs a b g h, paired_double_gaussian q fs a b g h =
  (gaussian q (fun x => gaussian q (fun y => fst (fs x y)) (g x) (h x)) a b,
   gaussian q (fun x => gaussian q (fun y => snd (fs x y)) (g x) (h x)) a b).
Proof. intros. rewrite paired_is_componentwise. now rewrite !double_gaussian_iterated. Qed.
Print Assumptions C37_paired_is_componentwise.
Example C37_ex : double_gaussian [(0, 2)] (fun x y => x * y) 0 2 (fun _ => 0) (fun x => 2 * x) = 4.
Proof. unfold double_gaussian, rule_sum, remap_interval. simpl. field. Qed.
