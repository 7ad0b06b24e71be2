(* The closed forms of the radiation regime against the integrals over the
   Fermi-Dirac and Bose-Einstein distributions *)
From Coq Require Import Reals Lra Psatz Lia.
From Coquelicot Require Import Coquelicot.
From Verif Require Import Base ThermoModel ThermoProofs WidthProofs.
Open Scope R_scope.

(* ---- numbers ---- *)
Lemma exp20 : 290000000 <= exp 20.
Proof.
  assert (H0 : 105 / 100 <= exp (1 / 20)) by (pose proof (exp_ineq1_le (1 / 20)); lra).
  assert (D : forall x l m, 0 <= l -> l <= exp x -> m <= l * l -> m <= exp (2 * x)).
  { intros x l m Hl Hx Hm. replace (2 * x) with (x + x) by ring. rewrite exp_plus. nra. }
  assert (H1 : 11025 / 10000 <= exp (2 * (1 / 20))) by (refine (D _ _ _ _ H0 _); lra).
  assert (H2 : 12155 / 10000 <= exp (2 * (2 * (1 / 20)))) by (refine (D _ _ _ _ H1 _); lra).
  assert (H3 : 14774 / 10000 <= exp (2 * (2 * (2 * (1 / 20))))) by (refine (D _ _ _ _ H2 _); lra).
  assert (H4 : 21827 / 10000 <= exp (2 * (2 * (2 * (2 * (1 / 20)))))) by (refine (D _ _ _ _ H3 _); lra).
  assert (H5 : 26530 / 10000 <= exp 1).
  { replace 1 with (2 * (2 * (2 * (2 * (1 / 20)))) + 2 * (2 * (1 / 20))) by lra. rewrite exp_plus. nra. }
  assert (H6 : 7038 / 1000 <= exp (2 * 1)) by (refine (D _ _ _ _ H5 _); lra).
  assert (H7 : 495 / 10 <= exp (2 * (2 * 1))) by (refine (D _ _ _ _ H6 _); lra).
  assert (H8 : 1313 / 10 <= exp 5).
  { replace 5 with (2 * (2 * 1) + 1) by lra. rewrite exp_plus. nra. }
  assert (H9 : 17230 <= exp (2 * 5)) by (refine (D _ _ _ _ H8 _); lra).
  replace 20 with (2 * (2 * 5)) by lra. refine (D _ _ _ _ H9 _); lra.
Qed.
Lemma exp_m20 : exp (- 20) <= 1 / 290000000.
Proof.
  replace (-20) with (Ropp 20) by ring. rewrite exp_Ropp. pose proof exp20. unfold Rdiv. rewrite Rmult_1_l. apply Rinv_le_contravar; lra.
Qed.

(* ---- alternating sums ---- *)
Fixpoint asum (f : nat -> R) (N : nat) : R := match N with O => 0 | S k => asum f k + (-1) ^ k * f (S k) end.

Lemma asum_diff f g b N : 0 <= b -> (forall n, Rabs (f (S n) - g (S n)) <= b * (1 / 2) ^ n) -> Rabs (asum f N - asum g N) <= b * 2.
Proof.
  intros Hb H. assert (G : Rabs (asum f N - asum g N) <= b * (2 - 2 * (1 / 2) ^ N)).
  { induction N as [|k IH]; cbn [asum].
    - replace (0 - 0) with 0 by ring. rewrite Rabs_R0. cbn. lra.
    - replace (asum f k + (-1) ^ k * f (S k) - (asum g k + (-1) ^ k * g (S k)))
        with (asum f k - asum g k + (-1) ^ k * (f (S k) - g (S k))) by ring.
      eapply Rle_trans; [apply Rabs_triang|]. rewrite Rabs_mult, pow_1_abs, Rmult_1_l.
      specialize (H k). cbn [pow]. lra. }
  assert (0 <= (1 / 2) ^ N) by (apply pow_le; lra). nra.
Qed.

(* the geometric series of 1/(exp x + 1) *)
Lemma asum_geom x N : asum (fun n => exp (- (INR n * x))) N = (1 - (-1) ^ N * exp (- (INR N * x))) / (exp x + 1).
Proof.
  pose proof (exp_pos x). induction N as [|k IH]; cbn [asum].
  - cbn [pow INR]. rewrite Rmult_0_l, Ropp_0, exp_0. field. lra.
  - rewrite IH, S_INR. replace (- (INR k * x)) with (- ((INR k + 1) * x) + x) by ring. rewrite exp_plus.
    cbn [pow]. field. lra.
Qed.
Lemma fermi_bounds x : asum (fun n => exp (- (INR n * x))) 20 <= 1 / (exp x + 1) <= asum (fun n => exp (- (INR n * x))) 21.
Proof.
  pose proof (exp_pos x). pose proof (exp_pos (- (INR 20 * x))). pose proof (exp_pos (- (INR 21 * x))).
  rewrite !asum_geom. replace ((-1) ^ 20) with 1 by ring. replace ((-1) ^ 21) with (-1) by ring.
  split; apply Rmult_le_compat_r; try lra; left; apply Rinv_0_lt_compat; lra.
Qed.

(* ---- one power of the momentum ---- *)
Lemma is_RInt_zero a b : is_RInt (fun _ => 0) a b 0.
Proof.
  assert (G : forall l, l = @scal R_AbsRing R_NormedModule (b - a) 0 -> is_RInt (fun _ => 0) a b l)
    by (intros l ->; apply (is_RInt_const (V := R_NormedModule))).
  apply G. unfold scal; cbn; unfold mult; cbn. ring.
Qed.
Section Power.
Variables (j : nat) (J : R -> R -> R) (K : R -> R) (P : R).
Hypothesis HP : 0 <= P.
Hypothesis HJ : forall c X, 1 <= c -> is_RInt (fun x => x ^ j * exp (- (c * x))) 0 X (J c X).
Hypothesis HK : forall c X, 1 <= c -> 0 <= X -> J c X <= K c.
Hypothesis HL : forall c, 1 <= c -> K c - P * exp (- (c * 20)) <= J c 20.

Lemma J_mono c X : 1 <= c -> 20 <= X -> J c 20 <= J c X.
Proof.
  intros Hc HX. pose proof (HJ c 20 Hc) as A. pose proof (HJ c X Hc) as B.
  pose proof (is_RInt_Chasles _ _ _ _ _ _ (is_RInt_swap _ _ _ _ A) B) as C.
  assert (0 <= plus (opp (J c 20)) (J c X)).
  { apply (is_RInt_le (fun _ => 0) (fun x => x ^ j * exp (- (c * x))) 20 X); [lra| |exact C|].
    - apply is_RInt_zero.
    - intros x [Hx _]. apply Rmult_le_pos; [apply pow_le; lra|left; apply exp_pos]. }
  unfold plus, opp in H. cbn in H. lra.
Qed.
Lemma J_close n X : 20 <= X -> Rabs (J (INR (S n)) X - K (INR (S n))) <= P * exp (- 20) * (1 / 2) ^ n.
Proof.
  intros HX. assert (Hc : 1 <= INR (S n)) by (rewrite S_INR; pose proof (pos_INR n); lra).
  pose proof (HK _ X Hc ltac:(lra)) as A. pose proof (HL _ Hc) as B. pose proof (J_mono _ X Hc HX) as C.
  assert (E : exp (- (INR (S n) * 20)) <= exp (-20) * (1 / 2) ^ n).
  { clear -n. induction n as [|k IH].
    - cbn [pow INR]. replace (- (1 * 20)) with (-20) by ring. lra.
    - rewrite S_INR. replace (- ((INR (S k) + 1) * 20)) with (- (INR (S k) * 20) + -20) by ring.
      rewrite exp_plus. cbn [pow]. pose proof exp_m20. pose proof (exp_pos (-20)). pose proof (exp_pos (- (INR (S k) * 20))).
      apply Rle_trans with (exp (- (INR (S k) * 20)) * (1 / 2)); [nra|]. nra. }
  rewrite Rabs_left1 by lra. nra.
Qed.

Lemma asum_int X N : is_RInt (fun x => x ^ j * asum (fun n => exp (- (INR n * x))) N) 0 X (asum (fun n => J (INR n) X) N).
Proof.
  induction N as [|k IH]; cbn [asum].
  - apply (is_RInt_ext (fun _ => 0)); [intros x _; change (@eq R 0 (x ^ j * 0)); ring|]. apply is_RInt_zero.
  - assert (Hc : 1 <= INR (S k)) by (rewrite S_INR; pose proof (pos_INR k); lra).
    pose proof (is_RInt_scal _ 0 X ((-1) ^ k) _ (HJ (INR (S k)) X Hc)) as A.
    pose proof (is_RInt_plus _ _ _ _ _ _ IH A) as B.
    eapply is_RInt_ext; [|exact B]. intros x _.
    change (@eq R (x ^ j * asum (fun n => exp (- (INR n * x))) k + (-1) ^ k * (x ^ j * exp (- (INR (S k) * x))))
      (x ^ j * (asum (fun n => exp (- (INR n * x))) k + (-1) ^ k * exp (- (INR (S k) * x))))). ring.
Qed.

Lemma fermi_cont : forall X, ex_RInt (fun x => x ^ j * (1 / (exp x + 1))) 0 X.
Proof.
  intros X. apply (ex_RInt_continuous (V := R_CompleteNormedModule)). intros x _.
  apply (ex_derive_continuous (fun x => x ^ j * (1 / (exp x + 1)))). auto_derive. pose proof (exp_pos x). lra.
Qed.

Lemma fermi_integral X : 20 <= X ->
  asum (fun n => K (INR n)) 20 - P * exp (-20) * 2 <= RInt (fun x => x ^ j * (1 / (exp x + 1))) 0 X
  <= asum (fun n => K (INR n)) 21 + P * exp (-20) * 2.
Proof.
  intros HX. pose proof (exp_pos (-20)).
  pose proof (RInt_correct _ _ _ (fermi_cont X)) as HI.
  assert (L : asum (fun n => J (INR n) X) 20 <= RInt (fun x => x ^ j * (1 / (exp x + 1))) 0 X).
  { apply (is_RInt_le _ _ 0 X _ _ ltac:(lra) (asum_int X 20) HI). intros x [Hx _].
    apply Rmult_le_compat_l; [apply pow_le; lra|]. apply fermi_bounds. }
  assert (U : RInt (fun x => x ^ j * (1 / (exp x + 1))) 0 X <= asum (fun n => J (INR n) X) 21).
  { apply (is_RInt_le _ _ 0 X _ _ ltac:(lra) HI (asum_int X 21)). intros x [Hx _].
    apply Rmult_le_compat_l; [apply pow_le; lra|]. apply fermi_bounds. }
  assert (D : forall N, Rabs (asum (fun n => J (INR n) X) N - asum (fun n => K (INR n)) N) <= P * exp (-20) * 2).
  { intros N. apply asum_diff; [nra|]. intros n. apply J_close; exact HX. }
  pose proof (Rabs_def2 (asum (fun n => J (INR n) X) 20 - asum (fun n => K (INR n)) 20) (P * exp (-20) * 2 + 1)) as _.
  pose proof (D 20%nat) as D20. pose proof (D 21%nat) as D21.
  apply Rabs_le_between in D20. apply Rabs_le_between in D21. lra.
Qed.
End Power.

(* ---- the two powers used ---- *)
Definition J3 (c X : R) : R := 6 / c ^ 4 - exp (- (c * X)) * (X ^ 3 / c + 3 * X ^ 2 / c ^ 2 + 6 * X / c ^ 3 + 6 / c ^ 4).
Definition J2 (c X : R) : R := 2 / c ^ 3 - exp (- (c * X)) * (X ^ 2 / c + 2 * X / c ^ 2 + 2 / c ^ 3).

Lemma J3_int c X : 1 <= c -> is_RInt (fun x => x ^ 3 * exp (- (c * x))) 0 X (J3 c X).
Proof.
  intros Hc. replace (J3 c X) with (minus (J3 c X) (J3 c 0)).
  2:{ unfold J3, minus, plus, opp; cbn. rewrite Rmult_0_r, Ropp_0, exp_0. field. lra. }
  apply (is_RInt_derive (J3 c) (fun x => x ^ 3 * exp (- (c * x)))).
  - intros x _. unfold J3. auto_derive; [lra|]. field. lra.
  - intros x _. apply (ex_derive_continuous (fun x => x ^ 3 * exp (- (c * x)))). auto_derive. exact I.
Qed.
Lemma J2_int c X : 1 <= c -> is_RInt (fun x => x ^ 2 * exp (- (c * x))) 0 X (J2 c X).
Proof.
  intros Hc. replace (J2 c X) with (minus (J2 c X) (J2 c 0)).
  2:{ unfold J2, minus, plus, opp; cbn. rewrite Rmult_0_r, Ropp_0, exp_0. field. lra. }
  apply (is_RInt_derive (J2 c) (fun x => x ^ 2 * exp (- (c * x)))).
  - intros x _. unfold J2. auto_derive; [lra|]. field. lra.
  - intros x _. apply (ex_derive_continuous (fun x => x ^ 2 * exp (- (c * x)))). auto_derive. exact I.
Qed.
Lemma inv_pow_le1 c n : 1 <= c -> 0 < / c ^ n <= 1.
Proof.
  intros Hc. assert (1 <= c ^ n) by (apply pow_R1_Rle; exact Hc).
  split; [apply Rinv_0_lt_compat; lra|]. rewrite <- Rinv_1. apply Rinv_le_contravar; lra.
Qed.
Lemma J3_le c X : 1 <= c -> 0 <= X -> J3 c X <= 6 / c ^ 4.
Proof.
  intros Hc HX. unfold J3. pose proof (exp_pos (- (c * X))).
  pose proof (inv_pow_le1 c 1 Hc). pose proof (inv_pow_le1 c 2 Hc). pose proof (inv_pow_le1 c 3 Hc). pose proof (inv_pow_le1 c 4 Hc).
  rewrite pow_1 in H0. assert (0 <= X ^ 2 /\ 0 <= X ^ 3) by (split; apply pow_le; lra).
  unfold Rdiv. assert (0 <= X ^ 3 * / c + 3 * X ^ 2 * / c ^ 2 + 6 * X * / c ^ 3 + 6 * / c ^ 4).
  { repeat apply Rplus_le_le_0_compat; apply Rmult_le_pos; try lra. }
  nra.
Qed.
Lemma J2_le c X : 1 <= c -> 0 <= X -> J2 c X <= 2 / c ^ 3.
Proof.
  intros Hc HX. unfold J2. pose proof (exp_pos (- (c * X))).
  pose proof (inv_pow_le1 c 1 Hc). pose proof (inv_pow_le1 c 2 Hc). pose proof (inv_pow_le1 c 3 Hc).
  rewrite pow_1 in H0. assert (0 <= X ^ 2) by (apply pow_le; lra).
  unfold Rdiv. assert (0 <= X ^ 2 * / c + 2 * X * / c ^ 2 + 2 * / c ^ 3).
  { repeat apply Rplus_le_le_0_compat; apply Rmult_le_pos; try lra. }
  nra.
Qed.
Lemma J3_ge c : 1 <= c -> 6 / c ^ 4 - 9326 * exp (- (c * 20)) <= J3 c 20.
Proof.
  intros Hc. unfold J3. pose proof (exp_pos (- (c * 20))).
  pose proof (inv_pow_le1 c 1 Hc). pose proof (inv_pow_le1 c 2 Hc). pose proof (inv_pow_le1 c 3 Hc). pose proof (inv_pow_le1 c 4 Hc).
  rewrite pow_1 in H0. unfold Rdiv.
  assert (20 ^ 3 * / c + 3 * 20 ^ 2 * / c ^ 2 + 6 * 20 * / c ^ 3 + 6 * / c ^ 4 <= 9326) by lra. nra.
Qed.
Lemma J2_ge c : 1 <= c -> 2 / c ^ 3 - 442 * exp (- (c * 20)) <= J2 c 20.
Proof.
  intros Hc. unfold J2. pose proof (exp_pos (- (c * 20))).
  pose proof (inv_pow_le1 c 1 Hc). pose proof (inv_pow_le1 c 2 Hc). pose proof (inv_pow_le1 c 3 Hc).
  rewrite pow_1 in H0. unfold Rdiv.
  assert (20 ^ 2 * / c + 2 * 20 * / c ^ 2 + 2 * / c ^ 3 <= 442) by lra. nra.
Qed.

Ltac inrs := repeat match goal with |- context [INR ?n] => rewrite (INR_IZR_INZ n); let z := eval vm_compute in (Z.of_nat n) in change (Z.of_nat n) with z end.
Lemma asum3_lo : 56820 / 10000 <= asum (fun n => 6 / INR n ^ 4) 20.
Proof. cbn [asum]. inrs. lra. Qed.
Lemma asum3_hi : asum (fun n => 6 / INR n ^ 4) 21 <= 56824 / 10000.
Proof. cbn [asum]. inrs. lra. Qed.
Lemma asum2_lo : 18029 / 10000 <= asum (fun n => 2 / INR n ^ 3) 20.
Proof. cbn [asum]. inrs. lra. Qed.
Lemma asum2_hi : asum (fun n => 2 / INR n ^ 3) 21 <= 18032 / 10000.
Proof. cbn [asum]. inrs. lra. Qed.

Lemma fermi3 X : 20 <= X -> 56819 / 10000 <= RInt (fun x => x ^ 3 * (1 / (exp x + 1))) 0 X <= 56825 / 10000.
Proof.
  intros HX. pose proof (fermi_integral 3 J3 (fun c => 6 / c ^ 4) 9326 ltac:(lra) J3_int J3_le J3_ge X HX) as [A B].
  pose proof asum3_lo. pose proof asum3_hi. pose proof exp_m20. cbv beta in *. lra.
Qed.
Lemma fermi2 X : 20 <= X -> 18028 / 10000 <= RInt (fun x => x ^ 2 * (1 / (exp x + 1))) 0 X <= 18033 / 10000.
Proof.
  intros HX. pose proof (fermi_integral 2 J2 (fun c => 2 / c ^ 3) 442 ltac:(lra) J2_int J2_le J2_ge X HX) as [A B].
  pose proof asum2_lo. pose proof asum2_hi. pose proof exp_m20. cbv beta in *. lra.
Qed.

(* ---- Bose-Einstein: functions that vanish at 0 ---- *)
Lemma cont_vanish (f : R -> R) C : 0 <= C -> f 0 = 0 -> (forall x, 0 < x -> continuous f x) ->
  (forall x, 0 < x <= 1 -> Rabs (f x) <= C * x) -> forall x, continuous (fun x => f (Rmax 0 x)) x.
Proof.
  intros HC H0 Hc Hb x.
  destruct (Rtotal_order x 0) as [Hx|[-> |Hx]].
  - apply (continuous_ext_loc _ (fun _ => f 0) x); [|apply continuous_const].
    exists (mkposreal (- x) ltac:(lra)). intros y Hy. cbn in Hy. unfold AbsRing_ball, abs, minus, plus, opp in Hy; cbn in Hy.
    apply Rabs_def2 in Hy. rewrite Rmax_left by lra. reflexivity.
  - intros P [eps HP]. rewrite Rmax_left, H0 in HP by lra.
    assert (Hd : 0 < Rmin 1 (eps / (C + 1))).
    { apply Rmin_pos; [lra|]. apply Rdiv_lt_0_compat; [apply cond_pos|lra]. }
    exists (mkposreal _ Hd). intros y Hy. apply HP. cbn in Hy |- *.
    unfold ball in *; cbn in *; unfold AbsRing_ball, abs, minus, plus, opp in *; cbn in *.
    rewrite Ropp_0, Rplus_0_r in *. pose proof (Rmin_l 1 (eps / (C + 1))). pose proof (Rmin_r 1 (eps / (C + 1))).
    apply Rabs_def2 in Hy. destruct (Rle_lt_dec y 0) as [L|L].
    + rewrite Rmax_left, H0, Rabs_R0 by exact L. apply cond_pos.
    + rewrite Rmax_right by lra. eapply Rle_lt_trans; [apply Hb; lra|].
      assert (y < eps / (C + 1)) by lra. assert ((C + 1) * y < eps).
      { replace (pos eps) with ((C + 1) * (eps / (C + 1))) by (field; lra). apply Rmult_lt_compat_l; lra. }
      nra.
  - apply (continuous_ext_loc _ f x); [|apply Hc; exact Hx].
    exists (mkposreal x Hx). intros y Hy. unfold ball in Hy; cbn in Hy; unfold AbsRing_ball, abs, minus, plus, opp in Hy; cbn in Hy.
    apply Rabs_def2 in Hy. rewrite Rmax_right by lra. reflexivity.
Qed.
Lemma ex_RInt_vanish (f : R -> R) C X : 0 <= X -> 0 <= C -> f 0 = 0 -> (forall x, 0 < x -> continuous f x) ->
  (forall x, 0 < x <= 1 -> Rabs (f x) <= C * x) -> ex_RInt f 0 X.
Proof.
  intros HX HC H0 Hc Hb. apply (ex_RInt_ext (fun x => f (Rmax 0 x))).
  { rewrite Rmin_left, Rmax_right by exact HX. intros x [Hx _]. rewrite Rmax_right by lra. reflexivity. }
  apply (ex_RInt_continuous (V := R_CompleteNormedModule)). intros x _. apply (cont_vanish f C); assumption.
Qed.

Lemma expm1_ge x : x <= exp x + -1.
Proof. pose proof (exp_ineq1_le x). lra. Qed.

Definition bose (j : nat) (x : R) : R := x ^ j * (1 / (exp x + -1)).
Definition fermi (j : nat) (x : R) : R := x ^ j * (1 / (exp x + 1)).
Lemma bose_small i x : 0 < x <= 1 -> 0 <= bose (S (S i)) x <= x.
Proof.
  intros [H0 H1]. unfold bose. pose proof (expm1_ge x). cbn [pow].
  assert (0 <= x ^ i <= 1) by (split; [apply pow_le; lra|replace 1 with (1 ^ i) by apply pow1; apply pow_incr; lra]).
  assert (Hr : 0 <= x * (1 / (exp x + -1)) <= 1).
  { split; [apply Rmult_le_pos; [lra|left; apply Rdiv_lt_0_compat; lra]|].
    replace (x * (1 / (exp x + -1))) with (x / (exp x + -1)) by (field; lra). apply -> Rdiv_le_1; lra. }
  replace (x * (x * x ^ i) * (1 / (exp x + -1))) with (x * (x ^ i * (x * (1 / (exp x + -1))))) by ring.
  assert (0 <= x ^ i * (x * (1 / (exp x + -1))) <= 1) by nra. nra.
Qed.
Lemma bose_ex i X : 0 <= X -> ex_RInt (bose (S (S i))) 0 X.
Proof.
  intros HX. apply (ex_RInt_vanish _ 1); try lra.
  - unfold bose. cbn [pow]. ring.
  - intros x Hx. apply (ex_derive_continuous (bose (S (S i)))). unfold bose. auto_derive. pose proof (expm1_ge x). lra.
  - intros x Hx. pose proof (bose_small i x Hx). rewrite Rabs_right; lra.
Qed.
Lemma fermi_bose i x : 0 <= x -> fermi (S (S i)) x = bose (S (S i)) x - 2 * (1 / 2) ^ S (S i) * bose (S (S i)) (2 * x).
Proof.
  intros [Hx| <-]; [|unfold fermi, bose; rewrite Rmult_0_r; cbn [pow]; ring].
  unfold fermi, bose. rewrite Rpow_mult_distr.
  replace (2 * (1 / 2) ^ S (S i) * (2 ^ S (S i) * x ^ S (S i) * (1 / (exp (2 * x) + -1))))
    with (2 * ((1 / 2) ^ S (S i) * 2 ^ S (S i)) * x ^ S (S i) * (1 / (exp (2 * x) + -1))) by ring.
  rewrite <- Rpow_mult_distr. replace (1 / 2 * 2) with 1 by field. rewrite pow1.
  replace (2 * x) with (x + x) by ring. rewrite exp_plus. pose proof (expm1_ge x). field. repeat split; nra.
Qed.
(* the exact relation between the two statistics *)
Lemma duplication i X : 0 <= X ->
  RInt (fermi (S (S i))) 0 X = RInt (bose (S (S i))) 0 X - (1 / 2) ^ S (S i) * RInt (bose (S (S i))) 0 (2 * X).
Proof.
  intros HX. pose proof (RInt_correct _ _ _ (bose_ex i X HX)) as A.
  pose proof (RInt_correct _ _ _ (bose_ex i (2 * X) ltac:(lra))) as B.
  assert (C : is_RInt (fun y => scal 2 (bose (S (S i)) (2 * y + 0))) 0 X (RInt (bose (S (S i))) 0 (2 * X))).
  { apply (is_RInt_comp_lin (bose (S (S i))) 2 0 0 X). rewrite Rmult_0_r, !Rplus_0_r. exact B. }
  pose proof (is_RInt_scal _ 0 X ((1 / 2) ^ S (S i)) _ C) as D.
  pose proof (is_RInt_minus _ _ _ _ _ _ A D) as E. apply is_RInt_unique.
  eapply is_RInt_ext; [|exact E]. rewrite Rmin_left, Rmax_right by exact HX. intros x [Hx _].
  change (@eq R (bose (S (S i)) x - (1 / 2) ^ S (S i) * (2 * bose (S (S i)) (2 * x + 0))) (fermi (S (S i)) x)).
  rewrite fermi_bose, Rplus_0_r by lra. ring.
Qed.

Lemma bose_tail i (J : R -> R -> R) (K : R -> R) P X :
  (forall c X, 1 <= c -> is_RInt (fun x => x ^ S (S i) * exp (- (c * x))) 0 X (J c X)) ->
  (forall c X, 1 <= c -> 0 <= X -> J c X <= K c) ->
  (forall c, 1 <= c -> K c - P * exp (- (c * 20)) <= J c 20) -> 20 <= X ->
  0 <= RInt (bose (S (S i))) 0 (2 * X) - RInt (bose (S (S i))) 0 X <= 2 * (P * exp (-20)).
Proof.
  intros HJ HK HL HX. pose proof (RInt_correct _ _ _ (bose_ex i X ltac:(lra))) as A.
  pose proof (RInt_correct _ _ _ (bose_ex i (2 * X) ltac:(lra))) as B.
  pose proof (is_RInt_Chasles _ _ _ _ _ _ (is_RInt_swap _ _ _ _ A) B) as C.
  pose proof (is_RInt_Chasles _ _ _ _ _ _ (is_RInt_swap _ _ _ _ (HJ 1 X ltac:(lra))) (HJ 1 (2 * X) ltac:(lra))) as D.
  pose proof (is_RInt_scal _ X (2 * X) 2 _ D) as E.
  set (b1 := RInt (bose (S (S i))) 0 X) in *. set (b2 := RInt (bose (S (S i))) 0 (2 * X)) in *.
  change (plus (opp b1) b2) with (- b1 + b2) in C.
  change (scal 2 (plus (opp (J 1 X)) (J 1 (2 * X)))) with (2 * (- J 1 X + J 1 (2 * X))) in E.
  assert (Hpt : forall x, X < x < 2 * X -> 0 <= bose (S (S i)) x <= scal 2 (x ^ S (S i) * exp (- (1 * x)))).
  { intros x Hx. change (0 <= x ^ S (S i) * (1 / (exp x + -1)) <= 2 * (x ^ S (S i) * exp (- (1 * x)))).
    assert (0 <= x ^ S (S i)) by (apply pow_le; lra). pose proof (expm1_ge x).
    assert (0 <= 1 / (exp x + -1) <= 2 * exp (- (1 * x))).
    { split; [left; apply Rdiv_lt_0_compat; lra|]. rewrite Rmult_1_l, exp_Ropp.
      apply Rmult_le_reg_r with ((exp x + -1) * exp x); [nra|]. field_simplify; lra. }
    split; [nra|]. nra. }
  split.
  - assert (0 <= - b1 + b2); [|lra]. apply (is_RInt_le (fun _ => 0) (bose (S (S i))) X (2 * X) _ _ ltac:(lra) (is_RInt_zero _ _) C).
    intros x Hx. apply Hpt. exact Hx.
  - assert (- b1 + b2 <= 2 * (- J 1 X + J 1 (2 * X))).
    { apply (is_RInt_le _ _ X (2 * X) _ _ ltac:(lra) C E). intros x Hx. apply Hpt. exact Hx. }
    pose proof (HK 1 (2 * X) ltac:(lra) ltac:(lra)). pose proof (HL 1 ltac:(lra)).
    pose proof (J_mono (S (S i)) J HJ 1 X ltac:(lra) HX). replace (- (1 * 20)) with (-20) in * by ring. lra.
Qed.

Lemma bose3 X : 20 <= X -> 64936 / 10000 <= RInt (bose 3) 0 X <= 64944 / 10000.
Proof.
  intros HX. pose proof (duplication 1 X ltac:(lra)) as D. pose proof (fermi3 X HX) as F.
  pose proof (bose_tail 1 J3 (fun c => 6 / c ^ 4) 9326 X J3_int J3_le J3_ge HX) as T. pose proof exp_m20.
  change (RInt (fun x => x ^ 3 * (1 / (exp x + 1))) 0 X) with (RInt (fermi 3) 0 X) in F.
  rewrite D in F. cbn [pow] in F. lra.
Qed.
Lemma bose2 X : 20 <= X -> 24037 / 10000 <= RInt (bose 2) 0 X <= 24045 / 10000.
Proof.
  intros HX. pose proof (duplication 0 X ltac:(lra)) as D. pose proof (fermi2 X HX) as F.
  pose proof (bose_tail 0 J2 (fun c => 2 / c ^ 3) 442 X J2_int J2_le J2_ge HX) as T. pose proof exp_m20.
  change (RInt (fun x => x ^ 2 * (1 / (exp x + 1))) 0 X) with (RInt (fermi 2) 0 X) in F.
  rewrite D in F. cbn [pow] in F. lra.
Qed.

(* ---- massive particles ---- *)
Definition en (mu x : R) : R := sqrt (x ^ 2 + mu ^ 2).
Lemma en_bounds mu x : 0 <= mu -> 0 <= x -> x <= en mu x <= x + mu.
Proof.
  intros Hm Hx. unfold en. split.
  - rewrite <- (sqrt_pow2 x) at 1 by exact Hx. apply sqrt_le_1_alt. nra.
  - rewrite <- (sqrt_pow2 (x + mu)) by lra. apply sqrt_le_1_alt. nra.
Qed.
Lemma one_minus_exp mu : (1 - mu) * exp mu <= 1.
Proof.
  pose proof (exp_ineq1_le (- mu)). pose proof (exp_pos mu).
  assert (exp (- mu) * exp mu = 1) by (rewrite <- exp_plus, Rplus_opp_l; apply exp_0). nra.
Qed.
(* e / (exp e + 1) against x / (exp x + 1) for x <= e <= x + mu *)
Lemma fermi_massive mu x e : 0 <= mu -> 0 <= x -> x <= e <= x + mu ->
  (1 - mu) * (x * (1 / (exp x + 1))) <= e * (1 / (exp e + 1)) <= x * (1 / (exp x + 1)) + mu * (1 / (exp x + 1)).
Proof.
  intros Hm Hx [A B]. pose proof (exp_pos x). pose proof (exp_pos e). pose proof (exp_pos mu).
  assert (exp x <= exp e) by (destruct A as [A| ->]; [left; apply exp_increasing; exact A|lra]).
  assert (exp e <= exp x * exp mu).
  { rewrite <- exp_plus. destruct B as [B| ->]; [left; apply exp_increasing; exact B|lra]. }
  assert (1 / (exp e + 1) <= 1 / (exp x + 1)) by (unfold Rdiv; rewrite !Rmult_1_l; apply Rinv_le_contravar; lra).
  assert (0 < 1 / (exp e + 1)) by (apply Rdiv_lt_0_compat; lra). assert (0 < 1 / (exp x + 1)) by (apply Rdiv_lt_0_compat; lra).
  split; [|nra]. apply Rle_trans with (x * (1 / (exp e + 1))); [|nra].
  assert ((1 - mu) * (1 / (exp x + 1)) <= 1 / (exp e + 1)); [|nra].
  apply Rmult_le_reg_r with ((exp x + 1) * (exp e + 1)); [nra|].
  replace ((1 - mu) * (1 / (exp x + 1)) * ((exp x + 1) * (exp e + 1))) with ((1 - mu) * (exp e + 1)) by (field; lra).
  replace (1 / (exp e + 1) * ((exp x + 1) * (exp e + 1))) with (exp x + 1) by (field; lra).
  destruct (Rle_lt_dec mu 1) as [L|L]; [|nra].
  pose proof (one_minus_exp mu). assert ((1 - mu) * exp e <= exp x); [|lra].
  apply Rle_trans with ((1 - mu) * (exp x * exp mu)); [apply Rmult_le_compat_l; lra|]. nra.
Qed.
(* t / (exp t - 1) decreases *)
Lemma bose_decr x e : 0 < x -> x <= e -> e * (1 / (exp e + -1)) <= x * (1 / (exp x + -1)).
Proof.
  intros Hx H. pose proof (expm1_ge x). pose proof (expm1_ge e).
  apply Rmult_le_reg_r with ((exp x + -1) * (exp e + -1)); [nra|].
  replace (e * (1 / (exp e + -1)) * ((exp x + -1) * (exp e + -1))) with (e * (exp x + -1)) by (field; lra).
  replace (x * (1 / (exp x + -1)) * ((exp x + -1) * (exp e + -1))) with (x * (exp e + -1)) by (field; lra).
  set (d := e - x). assert (Hd : 0 <= d) by (unfold d; lra). replace e with (x + d) by (unfold d; ring). rewrite exp_plus.
  pose proof (exp_ineq1_le d). pose proof (exp_pos x).
  (* x (exp x exp d - 1) - (x + d)(exp x - 1) >= d (x exp x - exp x + 1) >= 0 *)
  assert (0 <= x * exp x - exp x + 1).
  { pose proof (one_minus_exp x). lra. }
  nra.
Qed.
Lemma bose_massive mu x e : 0 <= mu -> 0 < x -> x <= e <= x + mu ->
  (1 - mu) * (x * (1 / (exp x + -1))) <= e * (1 / (exp e + -1)) <= x * (1 / (exp x + -1)).
Proof.
  intros Hm Hx [A B]. split; [|apply bose_decr; assumption].
  pose proof (expm1_ge x) as Ex. pose proof (expm1_ge e) as Ee.
  apply Rle_trans with ((x + mu) * (1 / (exp (x + mu) + -1))); [|apply bose_decr; lra].
  pose proof (expm1_ge (x + mu)) as Ey. pose proof (one_minus_exp mu) as O. pose proof (exp_ineq1_le mu) as Em.
  apply Rmult_le_reg_r with ((exp x + -1) * (exp (x + mu) + -1)); [nra|].
  replace ((1 - mu) * (x * (1 / (exp x + -1))) * ((exp x + -1) * (exp (x + mu) + -1))) with ((1 - mu) * x * (exp (x + mu) + -1)) by (field; lra).
  replace ((x + mu) * (1 / (exp (x + mu) + -1)) * ((exp x + -1) * (exp (x + mu) + -1))) with ((x + mu) * (exp x + -1)) by (field; lra).
  destruct (Rle_lt_dec mu 1) as [L|L].
  - rewrite exp_plus. set (E := exp x + -1) in *. replace (exp x) with (E + 1) by (unfold E; ring).
    replace ((1 - mu) * x * ((E + 1) * exp mu + -1)) with (((1 - mu) * exp mu) * (x * E) + (1 - mu) * (exp mu - 1) * x) by ring.
    assert (0 <= (1 - mu) * (exp mu - 1) <= mu) by nra.
    assert ((1 - mu) * (exp mu - 1) * x <= mu * E).
    { apply Rmult_le_compat; lra. }
    assert ((1 - mu) * exp mu * (x * E) <= 1 * (x * E)) by (apply Rmult_le_compat_r; [apply Rmult_le_pos; lra|exact O]). lra.
  - apply Rle_trans with 0; [|nra]. assert (0 <= x * (exp (x + mu) + -1)) by nra. nra.
Qed.

Definition sgn (b : bool) : R := if b then 1 else -1.
Definition emass (b : bool) (mu x : R) : R := x ^ 2 * (en mu x * (1 / (exp (en mu x) + sgn b))).
Lemma en0 x : 0 <= x -> en 0 x = x.
Proof. intros H. unfold en. replace (x ^ 2 + 0 ^ 2) with (x ^ 2) by ring. apply sqrt_pow2. exact H. Qed.
Lemma emass_ex b mu X : 0 <= mu -> 0 <= X -> ex_RInt (emass b mu) 0 X.
Proof.
  intros Hm HX. destruct Hm as [Hm| <-].
  - apply (ex_RInt_continuous (V := R_CompleteNormedModule)). intros x _.
    apply (ex_derive_continuous (emass b mu)). unfold emass, en. auto_derive.
    assert (0 < x * (x * 1) + mu * (mu * 1)) by nra.
    assert (P : 0 < sqrt (x * (x * 1) + mu * (mu * 1))) by (apply sqrt_lt_R0; assumption).
    assert (D : exp (sqrt (x * (x * 1) + mu * (mu * 1))) + sgn b <> 0).
    { pose proof (expm1_ge (sqrt (x * (x * 1) + mu * (mu * 1)))). pose proof (exp_pos (sqrt (x * (x * 1) + mu * (mu * 1)))).
      unfold sgn. destruct b; lra. }
    repeat split; assumption.
  - apply (ex_RInt_ext (if b then fermi 3 else bose 3)).
    + rewrite Rmin_left, Rmax_right by exact HX. intros x [Hx _].
      unfold emass. rewrite en0 by lra.
      destruct b; [change (@eq R (x ^ 3 * (1 / (exp x + 1))) (x ^ 2 * (x * (1 / (exp x + 1)))))
                  |change (@eq R (x ^ 3 * (1 / (exp x + -1))) (x ^ 2 * (x * (1 / (exp x + -1)))))]; ring.
    + destruct b; [apply (fermi_cont 3)|apply bose_ex; exact HX].
Qed.

Definition base3 (b : bool) (X : R) : R := if b then RInt (fermi 3) 0 X else RInt (bose 3) 0 X.
Lemma emass_bounds b mu X : 0 <= mu -> 20 <= X -> (1 - mu) * base3 b X <= RInt (emass b mu) 0 X <= (1 + mu) * base3 b X.
Proof.
  intros Hm HX. pose proof (RInt_correct _ _ _ (emass_ex b mu X Hm ltac:(lra))) as E. destruct b; cbn [base3].
  - pose proof (RInt_correct _ _ _ (fermi_cont 3 X)) as A. pose proof (RInt_correct _ _ _ (fermi_cont 2 X)) as B.
    pose proof (is_RInt_scal _ 0 X (1 - mu) _ A) as L. pose proof (is_RInt_plus _ _ _ _ _ _ A (is_RInt_scal _ 0 X mu _ B)) as U.
    change (RInt (fun x => x ^ 3 * (1 / (exp x + 1))) 0 X) with (RInt (fermi 3) 0 X) in *.
    change (RInt (fun x => x ^ 2 * (1 / (exp x + 1))) 0 X) with (RInt (fermi 2) 0 X) in *.
    set (f3 := RInt (fermi 3) 0 X) in *. set (f2 := RInt (fermi 2) 0 X) in *.
    change (scal (1 - mu) f3) with ((1 - mu) * f3) in L. change (plus f3 (scal mu f2)) with (f3 + mu * f2) in U.
    assert (Q1 : (1 - mu) * f3 <= RInt (emass true mu) 0 X).
    { apply (is_RInt_le _ _ 0 X _ _ ltac:(lra) L E). intros x [Hx _].
      change ((1 - mu) * (x ^ 3 * (1 / (exp x + 1))) <= emass true mu x). unfold emass, sgn.
      pose proof (fermi_massive mu x (en mu x) Hm ltac:(lra) (en_bounds mu x Hm ltac:(lra))) as [F _]. cbn [pow]. nra. }
    assert (Q2 : RInt (emass true mu) 0 X <= f3 + mu * f2).
    { apply (is_RInt_le _ _ 0 X _ _ ltac:(lra) E U). intros x [Hx _].
      change (emass true mu x <= x ^ 3 * (1 / (exp x + 1)) + mu * (x ^ 2 * (1 / (exp x + 1)))). unfold emass, sgn.
      pose proof (fermi_massive mu x (en mu x) Hm ltac:(lra) (en_bounds mu x Hm ltac:(lra))) as [_ F]. cbn [pow]. nra. }
    pose proof (fermi3 X HX) as G3. pose proof (fermi2 X HX) as G2.
    change (56819 / 10000 <= f3 <= 56825 / 10000) in G3. change (18028 / 10000 <= f2 <= 18033 / 10000) in G2.
    split; [exact Q1|]. nra.
  - pose proof (RInt_correct _ _ _ (bose_ex 1 X ltac:(lra))) as A.
    pose proof (is_RInt_scal _ 0 X (1 - mu) _ A) as L. pose proof (bose3 X HX) as G3.
    set (f3 := RInt (bose 3) 0 X) in *. change (scal (1 - mu) f3) with ((1 - mu) * f3) in L.
    assert (Q1 : (1 - mu) * f3 <= RInt (emass false mu) 0 X).
    { apply (is_RInt_le _ _ 0 X _ _ ltac:(lra) L E). intros x [Hx _].
      change ((1 - mu) * (x ^ 3 * (1 / (exp x + -1))) <= emass false mu x). unfold emass, sgn.
      pose proof (bose_massive mu x (en mu x) Hm ltac:(lra) (en_bounds mu x Hm ltac:(lra))) as [F _]. cbn [pow]. nra. }
    assert (Q2 : RInt (emass false mu) 0 X <= f3).
    { apply (is_RInt_le _ _ 0 X _ _ ltac:(lra) E A). intros x [Hx _].
      change (emass false mu x <= x ^ 3 * (1 / (exp x + -1))). unfold emass, sgn.
      pose proof (bose_massive mu x (en mu x) Hm ltac:(lra) (en_bounds mu x Hm ltac:(lra))) as [_ F]. cbn [pow]. nra. }
    split; [exact Q1|]. nra.
Qed.

(* ---- scaling by the temperature ---- *)
Lemma RInt_scaled (f g : R -> R) c T X I : 0 < T -> 0 <= X -> is_RInt g 0 X I ->
  (forall x, 0 < x -> f (T * x) = c * g x) -> is_RInt f 0 (X * T) (c * T * I).
Proof.
  intros HT HX HI H. pose proof (is_RInt_scal _ 0 X (c * T) _ HI) as A.
  assert (B : is_RInt (fun y => scal (/ T) (c * T * g (/ T * y + 0))) 0 (X * T) (c * T * I)).
  { apply (is_RInt_comp_lin (fun x => c * T * g x) (/ T) 0 0 (X * T)).
    replace (/ T * 0 + 0) with 0 by ring. replace (/ T * (X * T) + 0) with X by (field; lra). exact A. }
  eapply is_RInt_ext; [|exact B]. assert (0 <= X * T) by nra. rewrite Rmin_left, Rmax_right by lra. intros y [Hy _].
  change (@eq R (/ T * (c * T * g (/ T * y + 0))) (f y)). rewrite Rplus_0_r.
  assert (0 < / T * y) by (apply Rmult_lt_0_compat; [apply Rinv_0_lt_compat; lra|lra]).
  replace (f y) with (f (T * (/ T * y))) by (f_equal; field; lra). rewrite H by assumption. field. lra.
Qed.
Lemma energy_scaled p T x : 0 <= tmass p -> 0 < T -> 0 < x -> energy p (T * x) = T * en (tmass p / T) x.
Proof.
  intros Hm HT Hx. unfold energy, en. destruct (Rlt_dec 0 (tmass p)) as [L|L].
  - replace ((T * x) ^ 2 + tmass p ^ 2) with (T ^ 2 * (x ^ 2 + (tmass p / T) ^ 2)) by (field; lra).
    rewrite sqrt_mult by nra. rewrite sqrt_pow2 by lra. reflexivity.
  - replace (tmass p) with 0 by lra. unfold Rdiv. rewrite Rmult_0_l, Rabs_right by nra.
    replace (x ^ 2 + 0 ^ 2) with (x ^ 2) by ring. rewrite sqrt_pow2 by lra. reflexivity.
Qed.
Lemma eta_sgn p : eta p = sgn (fermion p).
Proof. reflexivity. Qed.
Lemma occupation_ok p e : 0 < e -> exp e + eta p <> 0.
Proof. intros H. pose proof (expm1_ge e). pose proof (exp_pos e). unfold eta. destruct (fermion p); lra. Qed.

Lemma energy_integral p T X : 0 <= tmass p -> 0 < T -> 0 <= X ->
  is_RInt (energy_integrand p T) 0 (X * T) (dof p / 2 / PI ^ 2 * T ^ 3 * T * RInt (emass (fermion p) (tmass p / T)) 0 X).
Proof.
  intros Hm HT HX. assert (Hmu : 0 <= tmass p / T) by (apply Rmult_le_pos; [lra|left; apply Rinv_0_lt_compat; lra]).
  apply (RInt_scaled _ _ _ _ _ _ HT HX (RInt_correct _ _ _ (emass_ex (fermion p) (tmass p / T) X Hmu HX))).
  intros x Hx. unfold energy_integrand, occupation, emass. rewrite energy_scaled by assumption. rewrite eta_sgn.
  replace (T * en (tmass p / T) x / T) with (en (tmass p / T) x) by (field; lra).
  generalize (1 / (exp (en (tmass p / T) x) + sgn (fermion p))) (en (tmass p / T) x) (PI ^ 2).
  intros o e q. unfold Rdiv. ring.
Qed.
Lemma density_integral p T X : tmass p = 0 -> 0 < T -> 0 <= X ->
  is_RInt (density_integrand p T) 0 (X * T) (dof p / 2 / PI ^ 2 * T ^ 2 * T * RInt (if fermion p then fermi 2 else bose 2) 0 X).
Proof.
  intros Hm HT HX. assert (E : ex_RInt (if fermion p then fermi 2 else bose 2) 0 X).
  { destruct (fermion p); [apply (fermi_cont 2)|apply bose_ex; exact HX]. }
  apply (RInt_scaled _ _ _ _ _ _ HT HX (RInt_correct _ _ _ E)).
  intros x Hx. unfold density_integrand, occupation. rewrite energy_scaled by lra. rewrite Hm.
  replace (T * en (0 / T) x / T) with x by (unfold Rdiv at 2; rewrite Rmult_0_l, en0 by lra; field; lra).
  unfold eta, fermi, bose. generalize (PI ^ 2). intros q. unfold Rdiv. destruct (fermion p); ring.
Qed.

Lemma PI2_pos : 0 < PI ^ 2.
Proof. apply pow_lt. apply PI_RGT_0. Qed.
Lemma pi4 : 973970 / 10000 <= PI ^ 4 <= 974110 / 10000.
Proof.
  pose proof PI_bounds as [A B]. assert (98690 / 10000 <= PI * PI <= 98697 / 10000) by nra.
  replace (PI ^ 4) with ((PI * PI) * (PI * PI)) by ring. nra.
Qed.

(* ---- the heat capacity: integration by parts ---- *)
Definition heat (b : bool) (x : R) : R := x ^ 4 * exp x / (exp x + sgn b) ^ 2.
Lemma heat_fermi X : is_RInt (heat true) 0 X (4 * RInt (fermi 3) 0 X - X ^ 4 * (1 / (exp X + 1))).
Proof.
  pose proof (RInt_correct _ _ _ (fermi_cont 3 X)) as A. change (RInt (fun x => x ^ 3 * (1 / (exp x + 1))) 0 X) with (RInt (fermi 3) 0 X) in A.
  pose proof (is_RInt_scal _ 0 X 4 _ A) as B.
  assert (C : is_RInt (fun x => heat true x - 4 * fermi 3 x) 0 X (minus (- (X ^ 4 * (1 / (exp X + 1)))) (- (0 ^ 4 * (1 / (exp 0 + 1)))))).
  { apply (is_RInt_derive (fun x => - (x ^ 4 * (1 / (exp x + 1))))).
    - intros x _. pose proof (exp_pos x). auto_derive; [lra|]. unfold heat, fermi, sgn. field. lra.
    - intros x _. pose proof (exp_pos x). apply (ex_derive_continuous (fun x => heat true x - 4 * fermi 3 x)).
      unfold heat, fermi, sgn. auto_derive. split; [|split; [lra|exact I]]. nra. }
  pose proof (is_RInt_plus _ _ _ _ _ _ C B) as D.
  replace (4 * RInt (fermi 3) 0 X - X ^ 4 * (1 / (exp X + 1)))
    with (plus (minus (- (X ^ 4 * (1 / (exp X + 1)))) (- (0 ^ 4 * (1 / (exp 0 + 1))))) (scal 4 (RInt (fermi 3) 0 X))).
  2:{ unfold plus, minus, opp, scal; cbn; unfold plus, mult, opp; cbn. ring. }
  eapply is_RInt_ext; [|exact D]. intros x _. change (@eq R (heat true x - 4 * fermi 3 x + 4 * fermi 3 x) (heat true x)). ring.
Qed.
Definition dbose (x : R) : R := heat false x - 4 * bose 3 x.
Lemma dbose_small x : 0 < x <= 1 -> Rabs (dbose x) <= 7 * x.
Proof.
  intros H. pose proof (bose_small 1 x H) as B. pose proof (expm1_ge x) as E. pose proof (exp_pos x).
  assert (0 <= heat false x <= 3 * x).
  { unfold heat, sgn. assert (exp x <= 3) by (eapply Rle_trans; [|apply exp_le_3]; destruct H as [_ [H| ->]]; [left; apply exp_increasing; exact H|lra]).
    assert (Q : 0 < exp x + -1) by lra. assert (0 < (exp x + -1) ^ 2) by (apply pow_lt; exact Q).
    assert (0 < x ^ 2) by (apply pow_lt; lra).
    split; [left; apply Rdiv_lt_0_compat; [apply Rmult_lt_0_compat; [apply pow_lt; lra|lra]|assumption]|].
    apply Rmult_le_reg_r with ((exp x + -1) ^ 2); [assumption|]. unfold Rdiv. rewrite Rmult_assoc, Rinv_l by lra. rewrite Rmult_1_r.
    assert (x ^ 2 <= (exp x + -1) ^ 2) by (apply pow_incr; lra).
    apply Rle_trans with (x ^ 4 * 3); [apply Rmult_le_compat_l; [apply pow_le; lra|lra]|].
    apply Rle_trans with (3 * x * x ^ 2); [|apply Rmult_le_compat_l; lra]. replace (x ^ 4) with (x * x * (x ^ 2)) by ring. nra. }
  unfold dbose. apply Rabs_le. lra.
Qed.
Lemma bose4_derive x : 0 <= x -> is_derive (fun x => - bose 4 (Rmax 0 x)) x (dbose (Rmax 0 x)).
Proof.
  intros [Hx| <-].
  - rewrite Rmax_right by lra. apply (is_derive_ext_loc (fun x => - bose 4 x)).
    + exists (mkposreal x Hx). intros y Hy. unfold ball in Hy; cbn in Hy; unfold AbsRing_ball, abs, minus, plus, opp in Hy; cbn in Hy.
      apply Rabs_def2 in Hy. rewrite Rmax_right by lra. reflexivity.
    + pose proof (expm1_ge x). unfold bose. auto_derive; [lra|]. unfold dbose, heat, bose, sgn. field. lra.
  - apply is_derive_Reals. rewrite Rmax_left by lra.
    assert (Z : bose 4 0 = 0) by (unfold bose; cbn [pow]; ring).
    replace (dbose 0) with 0 by (unfold dbose, heat, bose; cbn [pow]; unfold Rdiv; ring).
    intros eps He. assert (Hd : 0 < Rmin 1 eps) by (apply Rmin_pos; lra). exists (mkposreal _ Hd). intros h Hh Hb. cbn in Hb.
    pose proof (Rmin_l 1 eps). pose proof (Rmin_r 1 eps). apply Rabs_def2 in Hb.
    rewrite Rplus_0_l, (Rmax_left 0 0), Z by lra. destruct (Rle_lt_dec h 0) as [L|L].
    + rewrite Rmax_left, Z by exact L. replace ((- 0 - - 0) / h - 0) with 0 by (field; exact Hh). rewrite Rabs_R0. lra.
    + rewrite Rmax_right by lra. pose proof (bose_small 1 h ltac:(lra)) as B.
      replace ((- bose 4 h - - 0) / h - 0) with (- bose 3 h).
      * rewrite Rabs_Ropp, Rabs_right by lra. lra.
      * unfold bose. pose proof (expm1_ge h). field. lra.
Qed.
Lemma heat_bose X : 0 <= X -> is_RInt (heat false) 0 X (4 * RInt (bose 3) 0 X - X ^ 4 * (1 / (exp X + -1))).
Proof.
  intros HX. pose proof (RInt_correct _ _ _ (bose_ex 1 X HX)) as A. pose proof (is_RInt_scal _ 0 X 4 _ A) as B.
  assert (C : is_RInt (fun x => dbose (Rmax 0 x)) 0 X (minus (- bose 4 (Rmax 0 X)) (- bose 4 (Rmax 0 0)))).
  { apply (is_RInt_derive (fun x => - bose 4 (Rmax 0 x))).
    - rewrite Rmin_left by exact HX. intros x [Hx _]. apply bose4_derive. exact Hx.
    - intros x _. apply (cont_vanish dbose 7); [lra| | |].
      + unfold dbose, heat, bose; cbn [pow]; unfold Rdiv; ring.
      + intros y Hy. pose proof (expm1_ge y). apply (ex_derive_continuous dbose). unfold dbose, heat, bose, sgn. auto_derive.
        split; [|split; [lra|exact I]]. assert (0 < exp y + -1) by lra. nra.
      + intros y Hy. apply dbose_small. exact Hy. }
  pose proof (is_RInt_plus _ _ _ _ _ _ C B) as D.
  replace (4 * RInt (bose 3) 0 X - X ^ 4 * (1 / (exp X + -1)))
    with (plus (minus (- bose 4 (Rmax 0 X)) (- bose 4 (Rmax 0 0))) (scal 4 (RInt (bose 3) 0 X))).
  2:{ rewrite (Rmax_right 0 X), (Rmax_left 0 0) by lra. unfold bose at 1 2. unfold plus, minus, opp, scal; cbn; unfold plus, mult, opp; cbn. ring. }
  eapply is_RInt_ext; [|exact D]. rewrite Rmin_left, Rmax_right by exact HX. intros x [Hx _].
  change (@eq R (dbose (Rmax 0 x) + 4 * bose 3 x) (heat false x)). rewrite Rmax_right by lra. unfold dbose. ring.
Qed.
Lemma boundary_small b X : 20 <= X -> 0 <= X ^ 4 * (1 / (exp X + sgn b)) <= 6 / 10000.
Proof.
  intros HX. pose proof exp20 as E20. pose proof (expm1_ge X) as EX.
  assert (Q : X ^ 4 / 160000 <= exp X / exp 20).
  { replace (X ^ 4 / 160000) with ((X / 20) ^ 4) by field.
    replace (exp X / exp 20) with (exp (X - 20)) by (unfold Rminus; rewrite exp_plus, exp_Ropp; reflexivity).
    apply Rle_trans with (exp ((X - 20) / 20) ^ 4).
    - apply pow_incr. pose proof (exp_ineq1_le ((X - 20) / 20)). lra.
    - replace (exp ((X - 20) / 20) ^ 4) with (exp ((X - 20) / 5)).
      + destruct (Req_dec X 20) as [-> |N]; [right; f_equal; field|left; apply exp_increasing; lra].
      + cbn [pow]. rewrite Rmult_1_r, <- !exp_plus. f_equal. field. }
  assert (P : exp 20 <= exp X) by (destruct HX as [HX| <-]; [left; apply exp_increasing; exact HX|lra]).
  assert (S1 : 0 < exp X + sgn b) by (unfold sgn; destruct b; lra).
  assert (X4 : 0 <= X ^ 4) by (apply pow_le; lra).
  assert (G : X ^ 4 <= 160000 * (exp X / 290000000)).
  { apply Rle_trans with (160000 * (exp X / exp 20)); [lra|]. apply Rmult_le_compat_l; [lra|].
    unfold Rdiv. apply Rmult_le_compat_l; [lra|]. apply Rinv_le_contravar; lra. }
  split; [apply Rmult_le_pos; [exact X4|left; apply Rdiv_lt_0_compat; lra]|].
  apply Rmult_le_reg_r with (exp X + sgn b); [exact S1|].
  replace (X ^ 4 * (1 / (exp X + sgn b)) * (exp X + sgn b)) with (X ^ 4) by (field; lra). unfold sgn. destruct b; lra.
Qed.
Lemma heat_integral b X : 20 <= X -> exists B, is_RInt (heat b) 0 X (4 * base3 b X - B) /\ 0 <= B <= 6 / 10000.
Proof.
  intros HX. exists (X ^ 4 * (1 / (exp X + sgn b))). split; [|apply boundary_small; exact HX].
  destruct b; cbn [base3 sgn]; [apply heat_fermi|apply heat_bose; lra].
Qed.
