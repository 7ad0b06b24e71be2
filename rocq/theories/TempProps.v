(* C182: the history of aT computed by the steps follows the temperature
   equation d aT / dx = phi(x, aT) to first order in the step, and no better. *)
From Coq Require Import Reals Lra Psatz Lia.
From Coquelicot Require Import Coquelicot.
From Verif Require Import Base IntegratorsModel TempModel TempProofs.
Open Scope R_scope.

(* what the steps approximate: aT along a solution of the equation on [x0, X],
   whose slope against the stepping coordinate (x, or ln x with logarithmic
   steps) is at most M1, changes at rate at most M2, and reacts to a wrong aT
   by at most L *)
Definition coordinate (logmode : bool) (x : R) : R := if logmode then ln x else x.
Definition slope (logmode : bool) (phi : R -> R -> R) (x v : R) : R := (if logmode then x else 1) * phi x v.
Definition smooth_history (logmode : bool) (phi : R -> R -> R) (Y : R -> R) (x0 X L M1 M2 : R) : Prop :=
  (forall x, x0 <= x <= X -> is_derive Y x (phi x (Y x))) /\
  (forall x, x0 <= x <= X -> Rabs (slope logmode phi x (Y x)) <= M1) /\
  (forall x x', x0 <= x <= X -> x0 <= x' <= X ->
     Rabs (slope logmode phi x (Y x) - slope logmode phi x' (Y x')) <= M2 * Rabs (coordinate logmode x - coordinate logmode x')) /\
  (forall x v w, x0 <= x <= X -> Rabs (slope logmode phi x v - slope logmode phi x w) <= L * Rabs (v - w)).

Lemma slope_rate : forall logmode phi x v, slope logmode phi x v = rate logmode phi x v.
Proof. intros [|] phi x v; unfold slope, rate; ring. Qed.

(* the steps never fail, and x after n of them *)
Theorem C182_defined : forall logmode phi h x0 aT0 n, exists aT data,
  temperature_run logmode phi h x0 aT0 n = Ok (if logmode then x0 * (1 + h) ^ n else x0 + INR n * h, aT, data) /\
  length data = S n /\ nth 0 data 1 = 0.
Proof.
  intros logmode phi h x0 aT0 n. destruct (run_sequence logmode phi h x0 aT0) as (y & _ & _ & E). eexists _, _. split; [apply E|].
  cbn [length nth]. rewrite map_length, seq_length. split; reflexivity.
Qed.
Print Assumptions C182_defined.

Theorem C182_converges : forall logmode phi Y x0 X L M1 M2 span, 0 < x0 -> 0 <= L -> 0 <= M1 -> 0 <= M2 ->
  smooth_history logmode phi Y x0 X L M1 M2 ->
  forall h n xn aT data, 0 < h -> INR n * h <= span ->
  temperature_run logmode phi h x0 (Y x0) n = Ok (xn, aT, data) -> xn <= X ->
  Rabs (aT - Y xn) <= exp (13 * L * span) * (56 * M1 + span * (19 * M2 + M1 / 2)) * h.
Proof.
  intros logmode phi Y x0 X L M1 M2 span Hx HL HM1 HM2 (H1 & H2 & H3 & H4) h n xn aT data Hh Hs E HX.
  eapply Rle_trans; [apply (temperature_error logmode phi Y h x0 n xn aT data L M1 M2 Hh Hx HL HM1 HM2 E)|].
  - intros x B. apply H1. lra.
  - intros x B. rewrite <- slope_rate. apply H2. lra.
  - intros x x' B B'. rewrite <- !slope_rate. specialize (H3 x x'). unfold coordinate in H3. destruct logmode; apply H3; lra.
  - intros x v w B. rewrite <- !slope_rate. apply H4. lra.
  - eapply Rle_trans; [|right; apply Rmult_comm]. apply Rmult_le_compat_l; [lra|]. pose proof (pos_INR n).
    assert (0 <= INR n * h) by (apply Rmult_le_pos; lra).
    apply Rmult_le_compat; [left; apply exp_pos | apply Rplus_le_le_0_compat; [lra | apply Rmult_le_pos; lra] | |].
    + assert (HE : 13 * L * (INR n * h) <= 13 * L * span) by (apply Rmult_le_compat_l; lra).
      destruct HE as [HE| ->]; [left; apply exp_increasing; exact HE | lra].
    + apply Rplus_le_compat_l, Rmult_le_compat_r; lra.
Qed.
Print Assumptions C182_converges.

(* a constant slope c is not reproduced: the initial 0 recorded in the history
   leaves 79/720 of one step in aT forever *)
Theorem C182_linear_offset : forall c h x0 aT0 n, (4 <= n)%nat -> exists data,
  temperature_run false (fun _ _ => c) h x0 aT0 n = Ok (x0 + INR n * h, (aT0 + c * (INR n * h)) + 79 / 720 * h * c, data).
Proof.
  intros c h x0 aT0 n Hn. destruct (constant_run false (fun _ _ => c) c h x0 aT0 (fun k v => eq_refl) n Hn) as [data E]. exists data. rewrite E.
  unfold xs. do 3 f_equal. ring.
Qed.
Print Assumptions C182_linear_offset.

(* with logarithmic steps ln x advances by ln (1 + h) where aT advances by h
   times its slope: for aT = aT0 + c ln (x / x0) the error also grows with n *)
Theorem C182_log_drift : forall c h x0 aT0 n, 0 < x0 -> 0 < h <= 1 -> 0 <= c -> (4 <= n)%nat -> exists aT data,
  temperature_run true (fun x _ => c / x) h x0 aT0 n = Ok (x0 * (1 + h) ^ n, aT, data) /\
  aT - (aT0 + c * ln (x0 * (1 + h) ^ n / x0)) = c * (79 / 720 * h + INR n * (h - ln (1 + h))) /\
  c * h * (79 / 720 + INR n * h / 4) <= aT - (aT0 + c * ln (x0 * (1 + h) ^ n / x0)).
Proof.
  intros c h x0 aT0 n Hx Hh Hc Hn.
  assert (HP : 0 < (1 + h) ^ n) by (apply pow_lt; lra).
  destruct (constant_run true (fun x _ => c / x) c h x0 aT0) with (n := n) as [data E]; [|exact Hn|].
  { intros k v. unfold rate, xs. assert (0 < (1 + h) ^ k) by (apply pow_lt; lra). field. split; lra. }
  eexists _, data. split; [exact E|]. replace (x0 * (1 + h) ^ n / x0) with ((1 + h) ^ n) by (field; lra). rewrite ln_pow by lra.
  assert (EQ : aT0 + INR n * h * c + 79 / 720 * (h * c) - (aT0 + c * (INR n * ln (1 + h))) = c * (79 / 720 * h + INR n * (h - ln (1 + h)))) by field.
  split; [exact EQ|]. rewrite EQ, Rmult_assoc. apply Rmult_le_compat_l; [exact Hc|]. pose proof (ln1_lower h ltac:(lra)). pose proof (pos_INR n).
  assert (INR n * (h * h / 4) <= INR n * (h - ln (1 + h))) by (apply Rmult_le_compat_l; assumption). lra.
Qed.
Print Assumptions C182_log_drift.

(* no bound of second order exists, in either mode *)
Theorem C182_second_order_refuted : forall logmode, exists phi Y x0 X L M1 M2,
  0 < x0 /\ smooth_history logmode phi Y x0 X L M1 M2 /\
  ~ exists C, forall h n xn aT data, 0 < h -> INR n * h <= 1 ->
    temperature_run logmode phi h x0 (Y x0) n = Ok (xn, aT, data) -> xn <= X -> Rabs (aT - Y xn) <= C * h ^ 2.
Proof.
  assert (HS : forall C, exists h, 0 < h /\ h <= 1 / 5 /\ C * h ^ 2 < 79 / 720 * h).
  { intros C. pose proof (Rabs_pos C) as HC. exists (/ (5 + 10 * Rabs C)). set (k := 5 + 10 * Rabs C). assert (Hk : 5 <= k) by (unfold k; lra).
    assert (Hi : 0 < / k) by (apply Rinv_0_lt_compat; lra). assert (Hki : k * / k = 1) by (apply Rinv_r; lra).
    split; [exact Hi|]. split.
    - unfold Rdiv. rewrite Rmult_1_l. apply Rinv_le_contravar; lra.
    - assert (C * / k <= 1 / 10).
      { assert (C * / k <= Rabs C * / k) by (apply Rmult_le_compat_r; [lra | apply Rle_abs]). unfold k in Hki at 1. lra. }
      replace (C * (/ k) ^ 2) with (C * / k * / k) by ring. nra. }
  intros [|].
  - exists (fun x _ => 1 / x), ln, 1, 4, 0, 1, 0. split; [lra|]. split.
    + unfold smooth_history, slope, coordinate. split; [|split; [|split]].
      * intros x Hx. auto_derive; [lra|]. field. lra.
      * intros x Hx. replace (x * (1 / x)) with 1 by (field; lra). rewrite Rabs_R1. lra.
      * intros x x' Hx Hx'. replace (x * (1 / x) - x' * (1 / x')) with 0 by (field; lra). rewrite Rabs_R0. lra.
      * intros x v w Hx. rewrite Rminus_eq_0, Rabs_R0. lra.
    + intros [C HC]. destruct (HS C) as (h & Hh & H5 & HCh).
      destruct (C182_log_drift 1 h 1 (ln 1) 4) as (aT & data & E & EQ & _); try lra; try lia.
      assert (HP : (1 + h) ^ 4 <= 4). { assert (0 <= (1 + h) ^ 2 <= 36 / 25) by (cbn; nra). replace ((1 + h) ^ 4) with ((1 + h) ^ 2 * (1 + h) ^ 2) by ring. nra. }
      specialize (HC h 4%nat _ _ _ Hh ltac:(cbn; lra) E ltac:(lra)).
      replace (1 * (1 + h) ^ 4 / 1) with ((1 + h) ^ 4) in EQ by field. replace (1 * (1 + h) ^ 4) with ((1 + h) ^ 4) in HC by ring. rewrite ln_1 in EQ.
      pose proof (ln1_le h ltac:(lra)). pose proof (Rle_abs (aT - ln ((1 + h) ^ 4))). cbn [INR] in EQ. lra.
  - exists (fun _ _ => 1), (fun x => x), 1, 4, 0, 1, 0. split; [lra|]. split.
    + unfold smooth_history, slope, coordinate. split; [|split; [|split]].
      * intros x Hx. auto_derive; [tauto|]. ring.
      * intros x Hx. rewrite Rmult_1_l, Rabs_R1. lra.
      * intros x x' Hx Hx'. rewrite Rminus_eq_0, Rabs_R0. lra.
      * intros x v w Hx. rewrite Rminus_eq_0, Rabs_R0. lra.
    + intros [C HC]. destruct (HS C) as (h & Hh & H5 & HCh). destruct (C182_linear_offset 1 h 1 1 4 ltac:(lia)) as [data E].
      specialize (HC h 4%nat _ _ _ Hh ltac:(cbn; lra) E ltac:(cbn; lra)).
      replace (1 + 1 * (INR 4 * h) + 79 / 720 * h * 1 - (1 + INR 4 * h)) with (79 / 720 * h) in HC by ring. rewrite Rabs_right in HC; lra.
Qed.
Print Assumptions C182_second_order_refuted.

(* a non-trivial history meeting the hypotheses: aT = 2 / x decays by itself *)
Example C182_example : smooth_history false (fun x v => - v / x) (fun x => 2 / x) 1 3 1 2 4.
Proof.
  unfold smooth_history, slope, coordinate. split; [|split; [|split]].
  - intros x Hx. auto_derive; [lra|]. field. lra.
  - intros x Hx. replace (1 * (- (2 / x) / x)) with (- (2 * / (x * x))) by (field; lra). rewrite Rabs_Ropp.
    assert (0 < / (x * x) <= 1). { split; [apply Rinv_0_lt_compat; nra|]. rewrite <- Rinv_1. apply Rinv_le_contravar; nra. } rewrite Rabs_right; lra.
  - intros x x' Hx Hx'. replace (1 * (- (2 / x) / x) - 1 * (- (2 / x') / x')) with ((2 * (x + x') * / (x * x * (x' * x'))) * (x - x')) by (field; lra).
    rewrite Rabs_mult. apply Rmult_le_compat_r; [apply Rabs_pos|].
    assert (HP : 0 < x * x * (x' * x')) by (repeat apply Rmult_lt_0_compat; lra). rewrite Rabs_right.
    + apply (Rmult_le_reg_r (x * x * (x' * x'))); [exact HP|]. rewrite Rmult_assoc, Rinv_l by lra.
      assert (1 <= x * x') by nra. assert (x + x' <= 2 * (x * x')) by nra. assert (x * x' <= x * x * (x' * x')) by nra. lra.
    + apply Rle_ge, Rmult_le_pos; [lra | left; apply Rinv_0_lt_compat; exact HP].
  - intros x v w Hx. replace (1 * (- v / x) - 1 * (- w / x)) with (/ x * - (v - w)) by (field; lra). rewrite Rabs_mult, Rabs_Ropp. apply Rmult_le_compat_r; [apply Rabs_pos|].
    assert (0 < / x <= 1). { split; [apply Rinv_0_lt_compat; lra|]. rewrite <- Rinv_1. apply Rinv_le_contravar; lra. } rewrite Rabs_right; lra.
Qed.
