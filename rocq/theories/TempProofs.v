From Coq Require Import Reals Lra Psatz Lia.
From Coquelicot Require Import Coquelicot.
From Verif Require Import Base Poly IntegratorsModel IntegratorsProofs TempModel.
Open Scope R_scope.

(* the combination of past rates added in step n, over h *)
Definition comb (g : nat -> R) (n : nat) : R :=
  match n with
  | O => 3 / 2 * g 0%nat
  | 1%nat => (23 * g 1%nat - 16 * g 0%nat) / 12
  | 2%nat => (55 * g 2%nat - 59 * g 1%nat + 37 * g 0%nat) / 24
  | 3%nat => (1901 * g 3%nat - 2774 * g 2%nat + 2616 * g 1%nat - 1274 * g 0%nat) / 720
  | S (S (S (S m))) => (1901 * g (S (S (S (S m)))) - 2774 * g (S (S (S m))) + 2616 * g (S (S m)) - 1274 * g (S m) + 251 * g m) / 720
  end.

Lemma inc_small : forall data fs f h k bs d, data = fs -> (length fs <= 4)%nat -> (0 < length fs)%nat -> k = S (length fs) ->
  AB_coefficients (Z.of_nat k) = Some (bs, d) ->
  make_step_increment data f h = Ok (h * zipdot bs (fs ++ [f]) / d).
Proof.
  intros data fs f h k bs d -> H4 H0 -> HC. unfold make_step_increment.
  assert (HS : py_suffix fs (- MAX_AB) = fs).
  { unfold py_suffix, MAX_AB. cbn. replace (Z.to_nat (Z.of_nat (length fs) + -5)) with O by lia. reflexivity. }
  rewrite HS. pose proof (ab_default [] (fs ++ [f]) h) as E. cbn [app] in E. rewrite E by (rewrite !app_length; cbn [length]; lia).
  pose proof (ab_order_ok [] (fs ++ [f]) h (length (fs ++ [f])) bs d) as E2. cbn [app] in E2. rewrite E2; [reflexivity | | reflexivity | rewrite app_length; cbn [length]; lia].
  rewrite app_length. cbn [length]. rewrite Nat.add_1_r. exact HC.
Qed.

Lemma inc_large : forall pre a b c d e f h,
  make_step_increment (pre ++ [a; b; c; d; e]) f h = Ok (h * ((1901 * f - 2774 * e + 2616 * d - 1274 * c + 251 * b) / 720)).
Proof.
  intros. unfold make_step_increment.
  assert (HS : py_suffix (pre ++ [a; b; c; d; e]) (- MAX_AB) = [a; b; c; d; e]).
  { apply (py_suffix_app pre [a; b; c; d; e]). cbn. lia. }
  rewrite HS. pose proof (ab_default [a] [b; c; d; e; f] h eq_refl) as E. cbn [app length] in *. rewrite E.
  pose proof (ab_order_ok [a] [b; c; d; e; f] h 5 _ _ eq_refl eq_refl ltac:(lia)) as E2. cbn [app] in E2. rewrite E2. f_equal. cbn [zipdot]. field.
Qed.

Lemma increment : forall g n h, make_step_increment (0 :: map g (seq 0 n)) (g n) h = Ok (h * comb g n).
Proof.
  intros g n h. destruct n as [|[|[|[|m]]]].
  - rewrite (inc_small _ _ _ _ 2 [-1; 3] 2 eq_refl); try reflexivity; try (cbn; lia). f_equal. cbn. field.
  - rewrite (inc_small _ _ _ _ 3 [5; -16; 23] 12 eq_refl); try reflexivity; try (cbn; lia). f_equal. cbn. field.
  - rewrite (inc_small _ _ _ _ 4 [-9; 37; -59; 55] 24 eq_refl); try reflexivity; try (cbn; lia). f_equal. cbn. field.
  - rewrite (inc_small _ _ _ _ 5 [251; -1274; 2616; -2774; 1901] 720 eq_refl); try reflexivity; try (cbn; lia). f_equal. cbn. field.
  - assert (HD : exists pre a, 0 :: map g (seq 0 (S (S (S (S m))))) = pre ++ [a; g m; g (S m); g (S (S m)); g (S (S (S m)))]).
    { replace (S (S (S (S m)))) with (m + 4)%nat by lia. rewrite seq_app, map_app. cbn [seq map Nat.add].
      destruct m as [|m]; [exists [], 0; reflexivity|].
      exists (0 :: map g (seq 0 m)), (g m). rewrite seq_S, map_app. cbn [map app Nat.add]. rewrite <- !app_assoc. reflexivity. }
    destruct HD as (pre & a & ->). rewrite inc_large. reflexivity.
Qed.

(* the steps as sequences *)
Definition xs (logmode : bool) (h x0 : R) (n : nat) : R := if logmode then x0 * (1 + h) ^ n else x0 + INR n * h.
Lemma xs_S : forall logmode h x0 n, xs logmode h x0 (S n) = next_x logmode h (xs logmode h x0 n).
Proof. intros [|] h x0 n; unfold xs, next_x; [cbn [pow]; ring | rewrite S_INR; ring]. Qed.

Lemma run_sequence : forall logmode phi h x0 y0, exists y, y 0%nat = y0 /\
  (forall n, y (S n) = y n + h * comb (fun k => rate logmode phi (xs logmode h x0 k) (y k)) n) /\
  forall n, temperature_run logmode phi h x0 y0 n =
            Ok (xs logmode h x0 n, y n, 0 :: map (fun k => rate logmode phi (xs logmode h x0 k) (y k)) (seq 0 n)).
Proof.
  intros logmode phi h x0 y0.
  set (y := fun n => match temperature_run logmode phi h x0 y0 n with Ok (_, v, _) => v | Raise _ => 0 end).
  assert (HY : forall n, temperature_run logmode phi h x0 y0 n =
            Ok (xs logmode h x0 n, y n, 0 :: map (fun k => rate logmode phi (xs logmode h x0 k) (y k)) (seq 0 n)) /\
            temperature_run logmode phi h x0 y0 (S n) =
            Ok (xs logmode h x0 (S n), y n + h * comb (fun k => rate logmode phi (xs logmode h x0 k) (y k)) n,
                0 :: map (fun k => rate logmode phi (xs logmode h x0 k) (y k)) (seq 0 (S n)))).
  { assert (HN : forall n, temperature_run logmode phi h x0 y0 n =
            Ok (xs logmode h x0 n, y n, 0 :: map (fun k => rate logmode phi (xs logmode h x0 k) (y k)) (seq 0 n)) ->
            temperature_run logmode phi h x0 y0 (S n) =
            Ok (xs logmode h x0 (S n), y n + h * comb (fun k => rate logmode phi (xs logmode h x0 k) (y k)) n,
                0 :: map (fun k => rate logmode phi (xs logmode h x0 k) (y k)) (seq 0 (S n)))).
    { intros n E. cbn [temperature_run]. rewrite E. cbn [rbind].
      rewrite (increment (fun k => rate logmode phi (xs logmode h x0 k) (y k)) n h). cbn [rbind].
      rewrite xs_S, seq_S, map_app. reflexivity. }
    induction n as [|n [IH1 IH2]].
    - assert (E : temperature_run logmode phi h x0 y0 0 = Ok (xs logmode h x0 0, y 0%nat, 0 :: map (fun k => rate logmode phi (xs logmode h x0 k) (y k)) (seq 0 0))).
      { unfold y, xs. cbn. destruct logmode; repeat f_equal; ring. }
      split; [exact E | apply HN; exact E].
    - assert (E : y (S n) = y n + h * comb (fun k => rate logmode phi (xs logmode h x0 k) (y k)) n) by (unfold y at 1; rewrite IH2; reflexivity).
      rewrite <- E in IH2. split; [exact IH2 | apply HN; exact IH2]. }
  exists y. split; [reflexivity|]. split.
  - intros n. destruct (HY n) as [_ E2]. unfold y at 1. rewrite E2. reflexivity.
  - intros n. exact (proj1 (HY n)).
Qed.

Lemma abs_tri : forall a b, Rabs (a + b) <= Rabs a + Rabs b.
Proof. exact Rabs_triang. Qed.
Lemma comb_bound : forall g n B, (forall k, (k <= n)%nat -> Rabs (g k) <= B) -> Rabs (comb g n) <= 13 * B.
Proof.
  intros g n B H. assert (HB : 0 <= B) by (pose proof (H n (le_n n)); pose proof (Rabs_pos (g n)); lra).
  assert (HK : forall k, (k <= n)%nat -> - B <= g k <= B) by (intros k Hk; apply Rabs_le_between; apply H; exact Hk).
  apply Rabs_le. destruct n as [|[|[|[|m]]]]; cbn [comb].
  - pose proof (HK 0%nat ltac:(lia)). lra.
  - pose proof (HK 0%nat ltac:(lia)). pose proof (HK 1%nat ltac:(lia)). lra.
  - pose proof (HK 0%nat ltac:(lia)). pose proof (HK 1%nat ltac:(lia)). pose proof (HK 2%nat ltac:(lia)). lra.
  - pose proof (HK 0%nat ltac:(lia)). pose proof (HK 1%nat ltac:(lia)). pose proof (HK 2%nat ltac:(lia)). pose proof (HK 3%nat ltac:(lia)). lra.
  - pose proof (HK m ltac:(lia)). pose proof (HK (S m) ltac:(lia)). pose proof (HK (S (S m)) ltac:(lia)). pose proof (HK (S (S (S m))) ltac:(lia)). pose proof (HK (S (S (S (S m)))) ltac:(lia)). lra.
Qed.
Lemma comb_minus : forall g G n, comb g n - comb G n = comb (fun k => g k - G k) n.
Proof. intros g G n. destruct n as [|[|[|[|m]]]]; cbn [comb]; field. Qed.

Lemma alg_late : forall q K m i D, 1 <= q * K -> 0 <= D -> q * (K * (m + i * D)) + D <= q * K * (m + (i + 1) * D).
Proof.
  intros q K m i D H HD. assert (0 <= (q * K - 1) * D) by (apply Rmult_le_pos; lra).
  replace (q * K * (m + (i + 1) * D)) with (q * (K * (m + i * D)) + D + (q * K - 1) * D) by ring. lra.
Qed.
Lemma alg_early : forall q K m i D, 1 <= q * K -> 0 <= D -> 0 <= m -> q * (K * (14 * m * i + i * D)) + 14 * m <= q * K * (14 * m * (i + 1) + (i + 1) * D).
Proof.
  intros q K m i D H HD Hm. assert (0 <= (q * K - 1) * (14 * m + D)) by (apply Rmult_le_pos; lra).
  replace (q * K * (14 * m * (i + 1) + (i + 1) * D)) with (q * (K * (14 * m * i + i * D)) + (14 * m + D) + (q * K - 1) * (14 * m + D)) by ring. lra.
Qed.

(* discrete Gronwall *)
Section gronwall.
Variables (y z g G : nat -> R) (h L M1 D : R) (N : nat).
Hypothesis (Hh : 0 <= h) (HL : 0 <= L) (HM : 0 <= M1) (HD : 0 <= D).
Hypothesis H0 : y 0%nat = z 0%nat.
Hypothesis Hg : forall n, (n < N)%nat -> Rabs (g n - G n) <= L * Rabs (y n - z n).
Hypothesis HG : forall n, (n < N)%nat -> Rabs (G n) <= M1.
Hypothesis Hy : forall n, (n < N)%nat -> y (S n) = y n + h * comb g n.
Hypothesis Hz1 : forall n, (n < N)%nat -> Rabs (z (S n) - z n) <= h * M1.
Hypothesis Hz2 : forall n, (4 <= n)%nat -> (n < N)%nat -> Rabs (z (S n) - z n - h * comb G n) <= D.
Let q := 1 + 13 * (h * L).
Let B (n : nat) : R := q ^ n * (14 * (h * M1) * INR (Nat.min n 4) + INR n * D).

Lemma q1 : 1 <= q. Proof. unfold q. pose proof (Rmult_le_pos h L Hh HL). lra. Qed.
Lemma hm : 0 <= h * M1. Proof. apply Rmult_le_pos; assumption. Qed.
Lemma Binner_pos : forall n, 0 <= 14 * (h * M1) * INR (Nat.min n 4) + INR n * D.
Proof. intros n. pose proof hm. apply Rplus_le_le_0_compat; apply Rmult_le_pos; try lra; apply pos_INR. Qed.
Lemma B_pos : forall n, 0 <= B n.
Proof. intros n. apply Rmult_le_pos; [apply pow_le; pose proof q1; lra | apply Binner_pos]. Qed.
Lemma B_late : forall n, (4 <= n)%nat -> q * B n + D <= B (S n).
Proof.
  intros n Hn. unfold B. rewrite (Nat.min_r n 4), (Nat.min_r (S n) 4) by lia. rewrite (S_INR n). cbn [pow].
  apply alg_late; [exact (pow_R1_Rle q (S n) q1) | exact HD].
Qed.
Lemma B_early : forall n, (n < 4)%nat -> q * B n + 14 * (h * M1) <= B (S n).
Proof.
  intros n Hn. unfold B. rewrite (Nat.min_l n 4), (Nat.min_l (S n) 4) by lia. rewrite (S_INR n). cbn [pow].
  apply alg_early; [exact (pow_R1_Rle q (S n) q1) | exact HD | exact hm].
Qed.
Lemma B_mono : forall n, B n <= B (S n).
Proof.
  intros n. pose proof (B_pos n). pose proof q1. pose proof hm. assert (B n <= q * B n) by (rewrite <- (Rmult_1_l (B n)) at 1; apply Rmult_le_compat_r; assumption).
  destruct (Nat.lt_ge_cases n 4) as [L4|L4]; [pose proof (B_early n L4) | pose proof (B_late n L4)]; lra.
Qed.
Lemma error_step : forall n, (n <= N)%nat -> forall k, (k <= n)%nat -> Rabs (y k - z k) <= B n.
Proof.
  induction n as [|n IH]; intros HN k Hk.
  - replace k with 0%nat by lia. rewrite H0, Rminus_eq_0, Rabs_R0. apply B_pos.
  - destruct (Nat.eq_dec k (S n)) as [->|Ne]; [|eapply Rle_trans; [apply IH; lia | apply B_mono]].
    assert (IHk := IH ltac:(lia)). rewrite (Hy n) by lia. pose proof (B_pos n) as BP. pose proof (IHk n (le_n n)) as En.
    assert (HhL : 0 <= h * L) by (apply Rmult_le_pos; assumption).
    assert (Hd : forall k, (k <= n)%nat -> Rabs (g k - G k) <= L * B n).
    { intros j Hj. eapply Rle_trans; [apply Hg; lia|]. apply Rmult_le_compat_l; [exact HL | apply IHk; exact Hj]. }
    destruct (Nat.lt_ge_cases n 4) as [L4|L4].
    + assert (Hgk : forall k, (k <= n)%nat -> Rabs (g k) <= M1 + L * B n).
      { intros j Hj. replace (g j) with (G j + (g j - G j)) by ring. eapply Rle_trans; [apply Rabs_triang|].
        apply Rplus_le_compat; [apply HG; lia | apply Hd; exact Hj]. }
      pose proof (comb_bound g n _ Hgk) as HC. pose proof (Hz1 n ltac:(lia)) as HZ.
      replace (y n + h * comb g n - z (S n)) with ((y n - z n) + (h * comb g n + - (z (S n) - z n))) by ring.
      eapply Rle_trans; [apply Rabs_triang|]. eapply Rle_trans; [apply Rplus_le_compat_l, Rabs_triang|].
      rewrite Rabs_Ropp, Rabs_mult, (Rabs_right h) by lra.
      assert (h * Rabs (comb g n) <= h * (13 * (M1 + L * B n))) by (apply Rmult_le_compat_l; assumption).
      eapply Rle_trans; [|apply B_early; exact L4]. unfold q. nra.
    + pose proof (comb_bound (fun k => g k - G k) n _ Hd) as HC. rewrite <- comb_minus in HC. pose proof (Hz2 n L4 ltac:(lia)) as HZ.
      replace (y n + h * comb g n - z (S n)) with ((y n - z n) + (h * (comb g n - comb G n) + - (z (S n) - z n - h * comb G n))) by ring.
      eapply Rle_trans; [apply Rabs_triang|]. eapply Rle_trans; [apply Rplus_le_compat_l, Rabs_triang|].
      rewrite Rabs_Ropp, Rabs_mult, (Rabs_right h) by lra.
      assert (h * Rabs (comb g n - comb G n) <= h * (13 * (L * B n))) by (apply Rmult_le_compat_l; assumption).
      eapply Rle_trans; [|apply B_late; exact L4]. unfold q. nra.
Qed.
Lemma pow_exp : forall n, q ^ n <= exp (13 * L * (INR n * h)).
Proof.
  intros n. replace (13 * L * (INR n * h)) with (INR n * (13 * (h * L))) by ring. induction n as [|n IH]; [cbn; rewrite Rmult_0_l, exp_0; lra|].
  rewrite S_INR, Rmult_plus_distr_r, Rmult_1_l, Rplus_comm, exp_plus. cbn [pow]. apply Rmult_le_compat; [pose proof q1; lra | apply pow_le; pose proof q1; lra | | exact IH].
  unfold q. apply exp_ineq1_le.
Qed.
Lemma gronwall : Rabs (y N - z N) <= exp (13 * L * (INR N * h)) * (56 * (h * M1) + INR N * D).
Proof.
  eapply Rle_trans; [apply (error_step N (le_n N) N (le_n N))|]. unfold B.
  apply Rmult_le_compat; [apply pow_le; pose proof q1; lra | apply Binner_pos | apply pow_exp |].
  apply Rplus_le_compat_r. pose proof hm. assert (INR (Nat.min N 4) <= 4). { replace 4 with (INR 4) by (cbn; ring). apply le_INR. lia. } nra.
Qed.
End gronwall.

Lemma ln1_le : forall h, 0 <= h -> 0 <= ln (1 + h) <= h.
Proof.
  intros h Hh. split.
  - rewrite <- ln_1. destruct Hh as [Hh| <-]; [left; apply ln_increasing; lra | rewrite Rplus_0_r; lra].
  - pose proof (exp_ineq1_le h). rewrite <- (ln_exp h) at 2. destruct (Rle_lt_or_eq_dec _ _ H) as [L| ->]; [left; apply ln_increasing; lra | lra].
Qed.
Lemma diff_ln : forall h, 0 <= h -> is_derive (fun h => h - ln (1 + h)) h (h / (1 + h)).
Proof. intros h Hh. auto_derive; [lra|]. field. lra. Qed.
Lemma ln1_upper : forall h, 0 <= h -> h - ln (1 + h) <= h * h / 2.
Proof.
  intros h Hh. destruct (Req_dec h 0) as [->|Hn]; [rewrite Rplus_0_r, ln_1; lra|].
  destruct (MVT_gen (fun h => h * h / 2 - (h - ln (1 + h))) 0 h (fun h => h - h / (1 + h))) as (c & Hc & E).
  - intros x Hx. rewrite Rmin_left, Rmax_right in Hx by lra. auto_derive; [lra|]. field. lra.
  - intros x Hx. rewrite Rmin_left, Rmax_right in Hx by lra. apply (derivable_continuous_pt). exists (x - x / (1 + x)).
    apply is_derive_Reals. auto_derive; [lra|]. field. lra.
  - rewrite Rmin_left, Rmax_right in Hc by lra. rewrite Rplus_0_r, ln_1 in E.
    assert (0 <= (c - c / (1 + c)) * (h - 0)). { apply Rmult_le_pos; [|lra]. replace (c - c / (1 + c)) with (c * c / (1 + c)) by (field; lra). apply Rle_mult_inv_pos; nra. }
    lra.
Qed.
Lemma ln1_lower : forall h, 0 <= h <= 1 -> h * h / 4 <= h - ln (1 + h).
Proof.
  intros h Hh. destruct (Req_dec h 0) as [->|Hn]; [rewrite Rplus_0_r, ln_1; lra|].
  destruct (MVT_gen (fun h => (h - ln (1 + h)) - h * h / 4) 0 h (fun h => h / (1 + h) - h / 2)) as (c & Hc & E).
  - intros x Hx. rewrite Rmin_left, Rmax_right in Hx by lra. auto_derive; [lra|]. field. lra.
  - intros x Hx. rewrite Rmin_left, Rmax_right in Hx by lra. apply (derivable_continuous_pt). exists (x / (1 + x) - x / 2).
    apply is_derive_Reals. auto_derive; [lra|]. field. lra.
  - rewrite Rmin_left, Rmax_right in Hc by lra. rewrite Rplus_0_r, ln_1 in E.
    assert (0 <= (c / (1 + c) - c / 2) * (h - 0)). { apply Rmult_le_pos; [|lra]. replace (c / (1 + c) - c / 2) with (c * (1 - c) / (2 * (1 + c))) by (field; lra). apply Rle_mult_inv_pos; nra. }
    lra.
Qed.

(* an autonomous primitive W sampled with spacing l slightly below h *)
Section sampled.
Variables (W G : R -> R) (u0 l h M1 M2 : R) (N : nat).
Hypothesis (Hl : 0 <= l) (Hlh : l <= h) (Hq : h - l <= h * h / 2) (HM1 : 0 <= M1) (HM2 : 0 <= M2).
Let u (k : nat) := u0 + INR k * l.
Hypothesis HW : forall v, u0 <= v <= u N -> is_derive W v (G v).
Hypothesis HG : forall v, u0 <= v <= u N -> Rabs (G v) <= M1.
Hypothesis HLip : forall v w, u0 <= v <= u N -> u0 <= w <= u N -> Rabs (G v - G w) <= M2 * Rabs (v - w).
Lemma u_in : forall k, (k <= N)%nat -> u0 <= u k <= u N.
Proof. intros k Hk. unfold u. pose proof (pos_INR k). apply le_INR in Hk. split; nra. Qed.
Lemma u_S : forall k, u (S k) = u k + l.
Proof. intros k. unfold u. rewrite S_INR. ring. Qed.
Lemma sample_mvt : forall n, (n < N)%nat -> exists v, u n <= v <= u (S n) /\ W (u (S n)) - W (u n) = l * G v.
Proof.
  intros n Hn. pose proof (u_in n ltac:(lia)). pose proof (u_in (S n) ltac:(lia)). pose proof (u_S n) as E.
  destruct (MVT_gen W (u n) (u (S n)) G) as (v & Hv & EV).
  - intros x Hx. rewrite Rmin_left, Rmax_right in Hx by lra. apply HW. lra.
  - intros x Hx. rewrite Rmin_left, Rmax_right in Hx by lra. apply derivable_continuous_pt. exists (G x). apply is_derive_Reals, HW. lra.
  - rewrite Rmin_left, Rmax_right in Hv by lra. exists v. split; [exact Hv|]. rewrite EV, E. ring.
Qed.
Lemma sample_1 : forall n, (n < N)%nat -> Rabs (W (u (S n)) - W (u n)) <= h * M1.
Proof.
  intros n Hn. destruct (sample_mvt n Hn) as (v & Hv & ->). pose proof (u_in n ltac:(lia)). pose proof (u_in (S n) ltac:(lia)).
  rewrite Rabs_mult, (Rabs_right l) by lra. apply Rmult_le_compat; try lra; [apply Rabs_pos | apply HG; lra].
Qed.
Lemma near : forall a b n k, (a = u n) -> (b = u k) -> (k <= n)%nat -> (n <= N)%nat -> - (M2 * (INR (n - k) * l)) <= G b - G a <= M2 * (INR (n - k) * l).
Proof.
  intros a b n k -> -> Hk Hn. apply Rabs_le_between. eapply Rle_trans; [apply HLip; apply u_in; lia|]. apply Rmult_le_compat_l; [exact HM2|].
  unfold u. replace (u0 + INR k * l - (u0 + INR n * l)) with (- ((INR n - INR k) * l)) by ring. rewrite Rabs_Ropp, minus_INR by exact Hk.
  apply le_INR in Hk. rewrite Rabs_right by nra. lra.
Qed.
Lemma sample_2 : forall n, (4 <= n)%nat -> (n < N)%nat ->
  Rabs (W (u (S n)) - W (u n) - h * comb (fun k => G (u k)) n) <= h * h * (19 * M2 + M1 / 2).
Proof.
  intros n Hn4 Hn. destruct (sample_mvt n Hn) as (v & Hv & ->). pose proof (u_in n ltac:(lia)) as In. pose proof (u_in (S n) ltac:(lia)) as InS.
  destruct n as [|[|[|[|m]]]]; try lia. set (n := S (S (S (S m)))) in *.
  assert (HC : Rabs (comb (fun k => G (u k)) n - G (u n)) <= 18 * (M2 * l)).
  { unfold n. cbn [comb]. fold n.
    pose proof (near _ _ n (S (S (S m))) eq_refl eq_refl ltac:(lia) ltac:(lia)) as N1. replace (n - S (S (S m)))%nat with 1%nat in N1 by lia.
    pose proof (near _ _ n (S (S m)) eq_refl eq_refl ltac:(lia) ltac:(lia)) as N2. replace (n - S (S m))%nat with 2%nat in N2 by lia.
    pose proof (near _ _ n (S m) eq_refl eq_refl ltac:(lia) ltac:(lia)) as N3. replace (n - S m)%nat with 3%nat in N3 by lia.
    pose proof (near _ _ n m eq_refl eq_refl ltac:(lia) ltac:(lia)) as N4. replace (n - m)%nat with 4%nat in N4 by lia.
    cbn [INR] in N1, N2, N3, N4. assert (0 <= M2 * l) by (apply Rmult_le_pos; assumption). apply Rabs_le. lra. }
  assert (HV : Rabs (G v - G (u n)) <= M2 * l).
  { eapply Rle_trans; [apply HLip; lra|]. apply Rmult_le_compat_l; [exact HM2|]. rewrite u_S in Hv. rewrite Rabs_right; lra. }
  pose proof (HG v ltac:(lra)) as Hb.
  replace (l * G v - h * comb (fun k => G (u k)) n) with (h * (G v - G (u n)) + (- (h * (comb (fun k => G (u k)) n - G (u n))) + - ((h - l) * G v))) by ring.
  eapply Rle_trans; [apply Rabs_triang|]. eapply Rle_trans; [apply Rplus_le_compat_l, Rabs_triang|].
  rewrite !Rabs_Ropp, !(Rabs_mult h), (Rabs_mult (h - l)), (Rabs_right h), (Rabs_right (h - l)) by lra.
  assert (HMl : M2 * l <= M2 * h) by (apply Rmult_le_compat_l; assumption).
  assert (h * Rabs (G v - G (u n)) <= h * (M2 * h)) by (apply Rmult_le_compat_l; lra).
  assert (h * Rabs (comb (fun k => G (u k)) n - G (u n)) <= h * (18 * (M2 * h))) by (apply Rmult_le_compat_l; lra).
  assert ((h - l) * Rabs (G v) <= h * h / 2 * M1) by (apply Rmult_le_compat; try lra; apply Rabs_pos).
  lra.
Qed.
End sampled.

Lemma temperature_error : forall logmode phi Y h x0 N xN aT data L M1 M2,
  0 < h -> 0 < x0 -> 0 <= L -> 0 <= M1 -> 0 <= M2 ->
  temperature_run logmode phi h x0 (Y x0) N = Ok (xN, aT, data) ->
  (forall x, x0 <= x <= xN -> is_derive Y x (phi x (Y x))) ->
  (forall x, x0 <= x <= xN -> Rabs (rate logmode phi x (Y x)) <= M1) ->
  (forall x x', x0 <= x <= xN -> x0 <= x' <= xN ->
     Rabs (rate logmode phi x (Y x) - rate logmode phi x' (Y x')) <= M2 * Rabs (if logmode then ln x - ln x' else x - x')) ->
  (forall x v w, x0 <= x <= xN -> Rabs (rate logmode phi x v - rate logmode phi x w) <= L * Rabs (v - w)) ->
  Rabs (aT - Y xN) <= h * (exp (13 * L * (INR N * h)) * (56 * M1 + INR N * h * (19 * M2 + M1 / 2))).
Proof.
  intros logmode phi Y h x0 N xN aT data L M1 M2 Hh Hx HL HM1 HM2 ER HY HB HLip HLy.
  destruct (run_sequence logmode phi h x0 (Y x0)) as (y & E0 & ES & ERun). rewrite ERun in ER. injection ER as EX EA _. subst aT. subst xN.
  set (l := if logmode then ln (1 + h) else h). set (u0 := if logmode then ln x0 else x0).
  set (inv := fun v => if logmode then exp v else v). set (W := fun v => Y (inv v)). set (G := fun v => rate logmode phi (inv v) (Y (inv v))).
  assert (Hl : 0 <= l <= h /\ h - l <= h * h / 2).
  { unfold l. destruct logmode; [|nra]. split; [apply ln1_le; lra | apply ln1_upper; lra]. }
  assert (Hinv : forall k, inv (u0 + INR k * l) = xs logmode h x0 k).
  { intros k. unfold inv, u0, l, xs. destruct logmode; [|reflexivity]. rewrite exp_plus, exp_ln by lra. f_equal.
    rewrite <- ln_pow by lra. apply exp_ln. apply pow_lt. lra. }
  assert (Hinv0 : inv u0 = x0) by (unfold inv, u0; destruct logmode; [apply exp_ln; lra | reflexivity]).
  assert (Hin : forall v, u0 <= v <= u0 + INR N * l -> x0 <= inv v <= xs logmode h x0 N).
  { intros v Hv. rewrite <- Hinv, <- Hinv0. unfold inv. destruct logmode; [|exact Hv].
    split; [destruct (proj1 Hv) as [Q| ->] | destruct (proj2 Hv) as [Q| ->]]; try lra; left; apply exp_increasing; exact Q. }
  assert (Hco : forall v w, (if logmode then ln (inv v) - ln (inv w) else inv v - inv w) = v - w).
  { intros v w. unfold inv. destruct logmode; [rewrite !ln_exp|]; reflexivity. }
  assert (Hk : forall k, (k < N)%nat -> u0 <= u0 + INR k * l <= u0 + INR N * l).
  { intros k K. apply Nat.lt_le_incl, le_INR in K. pose proof (pos_INR k). split; nra. }
  pose proof (gronwall y (fun k => W (u0 + INR k * l)) (fun k => rate logmode phi (xs logmode h x0 k) (y k)) (fun k => G (u0 + INR k * l)) h L M1 (h * h * (19 * M2 + M1 / 2)) N) as GW.
  assert (0 <= h * h) by nra.
  assert (HWd : forall v, u0 <= v <= u0 + INR N * l -> is_derive W v (G v)).
  { intros v Hv. specialize (HY (inv v) (Hin v Hv)). unfold W, G, inv, rate in *. destruct logmode; [|exact HY].
    apply (is_derive_comp Y exp v (phi (exp v) (Y (exp v))) (exp v) HY). apply is_derive_Reals. apply derivable_pt_lim_exp. }
  replace (Y (xs logmode h x0 N)) with (W (u0 + INR N * l)) by (unfold W; rewrite Hinv; reflexivity).
  eapply Rle_trans; [apply GW|].
  - lra.
  - exact HL.
  - exact HM1.
  - apply Rmult_le_pos; lra.
  - rewrite E0. unfold W. rewrite Hinv. unfold xs. f_equal. destruct logmode; cbn; ring.
  - intros n Hn. unfold G, W. rewrite Hinv. apply HLy. rewrite <- Hinv. apply Hin, Hk, Hn.
  - intros n Hn. apply HB. apply Hin, Hk, Hn.
  - intros n _. apply ES.
  - intros n Hn. apply (sample_1 W G u0 l h M1 N); try tauto; try exact HWd. intros v Hv. apply HB, Hin, Hv.
  - intros n Hn4 Hn. apply (sample_2 W G u0 l h M1 M2 N); try tauto; try exact HWd.
    + intros v Hv. apply HB, Hin, Hv.
    + intros v w Hv Hw. rewrite <- (Hco v w). apply HLip; apply Hin; assumption.
  - right. ring.
Qed.

(* constant rate *)
Lemma constant_run : forall logmode phi c h x0 y0,
  (forall k v, rate logmode phi (xs logmode h x0 k) v = c) ->
  forall n, (4 <= n)%nat -> exists data, temperature_run logmode phi h x0 y0 n = Ok (xs logmode h x0 n, y0 + INR n * h * c + 79 / 720 * (h * c), data).
Proof.
  intros logmode phi c h x0 y0 Hc. destruct (run_sequence logmode phi h x0 y0) as (y & E0 & ES & ERun).
  assert (HY : forall m, y (4 + m)%nat = y0 + INR (4 + m) * h * c + 79 / 720 * (h * c)).
  { assert (ES' : forall n, y (S n) = y n + h * comb (fun _ => c) n).
    { intros n. rewrite ES. f_equal. f_equal. destruct n as [|[|[|[|m]]]]; cbn [comb]; rewrite !Hc; reflexivity. }
    induction m as [|m IH].
    - cbn [Nat.add]. rewrite !ES', E0. cbn. field.
    - replace (4 + S m)%nat with (S (4 + m)) by lia. rewrite ES', IH, S_INR. cbn [comb Nat.add]. field. }
  intros n Hn. eexists. rewrite ERun. replace n with (4 + (n - 4))%nat at 2 by lia. rewrite HY. replace (4 + (n - 4))%nat with n by lia. reflexivity.
Qed.
