From Coq Require Import Reals Lra Psatz Permutation.
From Coquelicot Require Import Coquelicot.
From Verif Require Import Base DsModel DsProofs.
Open Scope R_scope.

(* ---------- right limits at zero ---------- *)
Definition lim0 (f : R -> R) (L : R) : Prop :=
  forall eps, 0 < eps -> exists delta, 0 < delta /\ forall q, 0 < q < delta -> Rabs (f q - L) < eps.

Lemma lim0_iff f L : lim0 f L <-> limit1_in f (fun q => 0 < q) L 0.
Proof.
  unfold lim0, limit1_in, limit_in. simpl. unfold R_dist. split; intros H eps He.
  - destruct (H eps He) as (d & Hd & HD). exists d. split; [exact Hd|]. intros x (H1 & H2).
    apply HD. rewrite Rminus_0_r, Rabs_pos_eq in H2 by lra. lra.
  - destruct (H eps He) as (d & Hd & HD). exists d. split; [exact Hd|]. intros x H1.
    apply HD. split; [lra|]. rewrite Rminus_0_r, Rabs_pos_eq; lra.
Qed.
Lemma lim0_plus f g L M : lim0 f L -> lim0 g M -> lim0 (fun q => f q + g q) (L + M).
Proof. rewrite !lim0_iff. intros. now apply limit_plus. Qed.
Lemma lim0_mult f g L M : lim0 f L -> lim0 g M -> lim0 (fun q => f q * g q) (L * M).
Proof. rewrite !lim0_iff. intros. now apply limit_mul. Qed.
Lemma lim0_eq f L M : lim0 f L -> L = M -> lim0 f M.
Proof. now intros H <-. Qed.
Lemma lim0_const c : lim0 (fun _ => c) c.
Proof. intros eps He. exists 1. split; [lra|]. intros. rewrite Rminus_eq_0, Rabs_R0. exact He. Qed.
Lemma lim0_id : lim0 (fun q => q) 0.
Proof. intros eps He. exists eps. split; [lra|]. intros q Hq. rewrite Rminus_0_r, Rabs_pos_eq; lra. Qed.
Lemma lim0_ext f g L d : 0 < d -> (forall q, 0 < q < d -> f q = g q) -> lim0 g L -> lim0 f L.
Proof.
  intros Hd HE HG eps He. destruct (HG eps He) as (d' & H1 & H2). exists (Rmin d d'). split; [now apply Rmin_glb_lt|].
  intros q Hq. pose proof (Rmin_l d d'). pose proof (Rmin_r d d'). rewrite HE by lra. apply H2. lra.
Qed.
Lemma lim0_unique f L M : lim0 f L -> lim0 f M -> L = M.
Proof.
  intros H1 H2. destruct (Req_dec L M) as [|HN]; auto. exfalso.
  assert (He : 0 < Rabs (L - M) / 2) by (pose proof (Rabs_pos_lt (L - M) ltac:(lra)); lra).
  destruct (H1 _ He) as (d1 & D1' & E1). destruct (H2 _ He) as (d2 & D2' & E2).
  set (q := Rmin d1 d2 / 2). pose proof (Rmin_l d1 d2). pose proof (Rmin_r d1 d2).
  assert (0 < Rmin d1 d2) by (now apply Rmin_glb_lt).
  specialize (E1 q ltac:(unfold q; lra)). specialize (E2 q ltac:(unfold q; lra)).
  assert (Rabs (L - M) <= Rabs (f q - L) + Rabs (f q - M)).
  { replace (L - M) with (- (f q - L) + (f q - M)) by ring. eapply Rle_trans; [apply Rabs_triang|]. rewrite Rabs_Ropp. lra. }
  lra.
Qed.
(* |f q| <= C q near 0 *)
Lemma lim0_small f C d : 0 < d -> (forall q, 0 < q < d -> Rabs (f q) <= C * q) -> lim0 f 0.
Proof.
  intros Hd HB eps He.
  assert (HC : 0 <= Rabs C) by apply Rabs_pos. pose proof (Rle_abs C).
  exists (Rmin d (eps / (Rabs C + 1))). split; [apply Rmin_glb_lt; [exact Hd|apply Rdiv_lt_0_compat; lra]|].
  intros q Hq. pose proof (Rmin_l d (eps / (Rabs C + 1))). pose proof (Rmin_r d (eps / (Rabs C + 1))).
  rewrite Rminus_0_r. specialize (HB q ltac:(lra)).
  assert (q * (Rabs C + 1) < eps).
  { apply Rmult_lt_reg_r with (/ (Rabs C + 1)); [apply Rinv_0_lt_compat; lra|].
    rewrite Rmult_assoc, Rinv_r by lra. unfold Rdiv in *. lra. }
  nra.
Qed.

(* ---------- Db1 ---------- *)
Lemma sort3_spec a b c x y z : sort3 a b c = (x, y, z) -> z <= y <= x /\ Permutation [a; b; c] [x; y; z].
Proof.
  unfold sort3. destruct (Rlt_dec a b).
  - destruct (Rlt_dec a c).
    + destruct (Rlt_dec b c); intros H; injection H as <- <- <-; (split; [lra|]).
      * apply perm_trans with [a; c; b]; [apply perm_skip, perm_swap|]. apply perm_trans with [c; a; b]; [apply perm_swap|]. apply perm_skip, perm_swap.
      * apply perm_trans with [b; a; c]; [apply perm_swap|]. apply perm_skip, perm_swap.
    + destruct (Rlt_dec b a); intros H; injection H as <- <- <-; (split; [lra|]); [|apply perm_swap]. apply Permutation_refl.
  - destruct (Rlt_dec b c).
    + destruct (Rlt_dec a c); intros H; injection H as <- <- <-; (split; [lra|]).
      * apply perm_trans with [a; c; b]; [apply perm_skip, perm_swap|apply perm_swap].
      * apply perm_skip, perm_swap.
    + destruct (Rlt_dec a b); intros H; injection H as <- <- <-; (split; [lra|]); [apply perm_swap|apply Permutation_refl].
Qed.

Ltac sgn_all :=
  repeat match goal with
  | |- context [sgn ?e] => unfold sgn at 1; destruct (Rlt_dec 0 e); try lra; destruct (Rlt_dec e 0); try lra
  end.

Lemma sgn_pos e : 0 < e -> sgn e = 1.
Proof. intros. unfold sgn. destruct (Rlt_dec 0 e); [|lra]. destruct (Rlt_dec e 0); lra. Qed.
Lemma sgn_neg e : e < 0 -> sgn e = -1.
Proof. intros. unfold sgn. destruct (Rlt_dec 0 e); [lra|]. destruct (Rlt_dec e 0); lra. Qed.
Lemma sgn_zero e : e = 0 -> sgn e = 0.
Proof. intros. unfold sgn. destruct (Rlt_dec 0 e); [lra|]. destruct (Rlt_dec e 0); lra. Qed.
Ltac sg := repeat match goal with
  | |- context [sgn ?e] => first [rewrite (sgn_pos e) by lra | rewrite (sgn_neg e) by lra | rewrite (sgn_zero e) by lra]
  end.

Lemma D1_near y1 y2 y3 : 0 <= y3 <= y2 -> y2 <= y1 ->
  exists d, 0 < d /\ forall q, 0 < q < d ->
    D1 q y1 y2 y3 = q * (1 / 2 * (sgn (y1 + y2 - y3) + sgn (y1 - y2 + y3) - sgn (y1 - y2 - y3) - sgn (y1 + y2 + y3))).
Proof.
  intros H1 H2. destruct (Rtotal_order y1 (y2 + y3)) as [O|[O|O]].
  - exists (Rmin (y2 + y3 - y1) y3). split; [apply Rmin_glb_lt; lra|]. intros q Hq.
    pose proof (Rmin_l (y2 + y3 - y1) y3). pose proof (Rmin_r (y2 + y3 - y1) y3).
    sg. unfold D1. abs_all. lra.
  - destruct (Req_dec y3 0) as [Z|Z].
    + destruct (Req_dec y2 0) as [Z2|Z2].
      * exists 1. split; [lra|]. intros q Hq. sg. unfold D1. subst. abs_all. lra.
      * exists y2. split; [lra|]. intros q Hq. sg. unfold D1. subst y3. abs_all. lra.
    + exists y3. split; [lra|]. intros q Hq. sg. unfold D1. abs_all. lra.
  - exists (y1 - y2 - y3). split; [lra|]. intros q Hq. sg. unfold D1. abs_all. lra.
Qed.

Lemma D1_lim q2 q3 q4 : 0 <= q2 -> 0 <= q3 -> 0 <= q4 -> lim0 (fun q => D1 q q2 q3 q4 / q) (Db1 q2 q3 q4).
Proof.
  intros. unfold Db1. destruct (sort3 q2 q3 q4) as [[y1 y2] y3] eqn:ES. destruct (sort3_spec _ _ _ _ _ _ ES) as (HO & HP).
  assert (H3 : 0 <= y3).
  { assert (HI : In y3 [q2; q3; q4]) by (eapply Permutation_in; [symmetry; exact HP|cbn; auto]).
    destruct HI as [<-|[<-|[<-|[]]]]; auto. }
  destruct (D1_near y1 y2 y3 ltac:(lra) ltac:(lra)) as (d & Hd & HD).
  eapply lim0_ext with (d := d); [exact Hd| |apply lim0_const]. intros q Hq. cbv beta.
  rewrite (D1_perm q q2 q3 q4 q y1 y2 y3) by (now apply perm_skip). rewrite HD by exact Hq. field. lra.
Qed.
Lemma Db1_perm a b c x y z : 0 <= a -> 0 <= b -> 0 <= c -> 0 <= x -> 0 <= y -> 0 <= z ->
  Permutation [a; b; c] [x; y; z] -> Db1 a b c = Db1 x y z.
Proof.
  intros. eapply lim0_unique; [apply D1_lim; auto|]. eapply lim0_ext with (d := 1); [lra| |apply D1_lim; auto].
  intros q _. cbv beta. f_equal. apply D1_perm. now apply perm_skip.
Qed.

(* ---------- Db2 ---------- *)
Lemma D2_near q2 q3 q4 : 0 <= q2 -> 0 <= q4 <= q3 ->
  exists d B C, 0 < d /\ forall q, 0 < q < d -> D2 q q2 q3 q4 = q * (Db2_body q2 q3 q4 + B * q + C * q ^ 2).
Proof.
  intros Hq2 H34. unfold Db2_body.
  destruct (Rtotal_order q2 (q3 + q4)) as [O|[O|O]].
  - destruct (Rtotal_order q2 (q3 - q4)) as [P|[P|P]].
    + exists (q3 - q4 - q2), 0, 0. split; [lra|]. intros q Hq. rewrite D2_value by lra. unfold kend, klo, khi, cub.
      sg. abs_all. destruct (Rle_dec q2 q); abs_all; mm_all; field.
    + destruct (Req_dec q2 0) as [Z|Z].
      * exists q3, 0, 0. split; [lra|]. intros q Hq. rewrite D2_value by lra. unfold kend, klo, khi, cub.
        assert (q4 = q3) as -> by lra. subst q2. sg. abs_all. mm_all. field.
      * exists (Rmin q2 q4), (- q2 / 4), (- 1 / 12). split; [apply Rmin_glb_lt; lra|]. intros q Hq.
        pose proof (Rmin_l q2 q4). pose proof (Rmin_r q2 q4). rewrite D2_value by lra. unfold kend, klo, khi, cub.
        sg. abs_all. mm_all. subst q2. field.
    + exists (Rmin (q3 + q4 - q2) (q2 - (q3 - q4))), 0, (- 1 / 6). split; [apply Rmin_glb_lt; lra|]. intros q Hq.
      pose proof (Rmin_l (q3 + q4 - q2) (q2 - (q3 - q4))). pose proof (Rmin_r (q3 + q4 - q2) (q2 - (q3 - q4))).
      rewrite D2_value by lra. unfold kend, klo, khi, cub. sg. abs_all. mm_all. field.
  - destruct (Req_dec q4 0) as [Z|Z].
    + destruct (Req_dec q3 0) as [Z3|Z3].
      * exists 1, 0, 0. split; [lra|]. intros q Hq. rewrite D2_value by lra. unfold kend, klo, khi, cub.
        subst q4 q3. assert (q2 = 0) as -> by lra. sg. abs_all. mm_all. field.
      * exists q3, 0, 0. split; [lra|]. intros q Hq. rewrite D2_value by lra. unfold kend, klo, khi, cub.
        subst q4. assert (q2 = q3) as -> by lra. sg. abs_all. mm_all. field.
    + exists q4, (q2 / 4), (- 1 / 12). split; [lra|]. intros q Hq. rewrite D2_value by lra. unfold kend, klo, khi, cub.
      sg. abs_all. mm_all. subst q2. field.
  - exists (q2 - q3 - q4), 0, 0. split; [lra|]. intros q Hq. rewrite D2_value by lra. unfold kend, klo, khi, cub.
    sg. abs_all. mm_all. field.
Qed.
Lemma D2_lim q2 q3 q4 : 0 <= q2 -> 0 <= q3 -> 0 <= q4 -> lim0 (fun q => D2 q q2 q3 q4 / q) (Db2 q2 q3 q4).
Proof.
  intros H2 H3 H4. unfold Db2.
  assert (G : forall a b, 0 <= b <= a -> lim0 (fun q => D2 q q2 a b / q) (Db2_body q2 a b)).
  { intros a b Hab. destruct (D2_near q2 a b H2 Hab) as (d & B & C & Hd & HD).
    eapply lim0_ext with (d := d) (g := fun q => Db2_body q2 a b + B * q + C * (q * q)); [exact Hd| |].
    - intros q Hq. rewrite HD by exact Hq. field. lra.
    - apply lim0_eq with (Db2_body q2 a b + B * 0 + C * (0 * 0)); [|ring].
      apply (lim0_plus (fun q => Db2_body q2 a b + B * q) (fun q => C * (q * q))); [apply lim0_plus; [apply lim0_const|apply lim0_mult; [apply lim0_const|apply lim0_id]]|].
      apply lim0_mult; [apply lim0_const|]. apply lim0_mult; apply lim0_id. }
  destruct (Rlt_dec q3 q4).
  - eapply lim0_ext with (d := 1); [lra| |apply (G q4 q3); lra]. intros q Hq. cbv beta. f_equal. apply D2_swap34; lra.
  - apply G. lra.
Qed.

(* ---------- terms that vanish faster ---------- *)
Lemma is_RInt_bound f a b v M : a <= b -> is_RInt f a b v -> (forall x, a < x < b -> Rabs (f x) <= M) -> Rabs v <= M * (b - a).
Proof.
  intros Hab HI Hf.
  assert (HM : is_RInt (fun _ => M) a b ((b - a) * M)) by (apply (is_RInt_const a b M)).
  assert (H1 : 0 <= (b - a) * M - v).
  { apply (is_RInt_nonneg (fun x => M - f x) a b); auto.
    - apply (is_RInt_minus (V := R_NormedModule)); assumption.
    - intros x Hx. specialize (Hf x Hx). pose proof (Rle_abs (f x)). lra. }
  assert (H2 : 0 <= (b - a) * M + v).
  { apply (is_RInt_nonneg (fun x => M + f x) a b); auto.
    - apply (is_RInt_plus (V := R_NormedModule)); assumption.
    - intros x Hx. specialize (Hf x Hx). pose proof (Rle_abs (- f x)). rewrite Rabs_Ropp in *. lra. }
  apply Rabs_le. lra.
Qed.

Lemma width q b c d : 0 <= q -> 0 <= b -> 0 <= kend q b c d - klo q b c d <= 2 * q.
Proof.
  intros Hq Hb. unfold kend, khi.
  assert (b - q <= klo q b c d).
  { unfold klo. eapply Rle_trans; [|apply Rmax_l]. rewrite Rabs_minus_sym. apply Rle_abs. }
  pose proof (Rmin_l (q + b) (c + d)). unfold Rmax. destruct (Rle_dec _ _); lra.
Qed.
Lemma D3_small q b c d : 0 <= q -> 0 <= b -> 0 <= c -> 0 <= d -> Rabs (D3 q b c d) <= q * q * b * c * d.
Proof.
  intros. rewrite D3_value by auto. pose proof (width q b c d ltac:(lra) ltac:(lra)) as W.
  eapply Rle_trans; [apply (is_RInt_bound _ _ _ _ (1 / 2 * (q * b) * (c * d)) (k_order q b c d) (int3 q b c d _ _))|].
  - intros k Hk. destruct (k_in_range _ _ _ _ _ Hk) as (B1 & B2).
    pose proof (opp_dot_bound q b k ltac:(lra) ltac:(lra) B1) as O1. pose proof (opp_dot_bound c d k ltac:(lra) ltac:(lra) B2) as O2.
    rewrite !Rabs_mult. rewrite (Rabs_pos_eq (1 / 2)) by lra.
    apply Rmult_le_compat; try (apply Rabs_pos || apply Rabs_le; lra).
    + apply Rmult_le_pos; [lra|apply Rabs_pos].
    + apply Rmult_le_compat_l; [lra|]. apply Rabs_le. lra.
  - assert (0 <= q * b) by nra. assert (0 <= c * d) by nra. assert (0 <= q * b * (c * d)) by nra. nra.
Qed.
Lemma D2_small q b c d : 0 <= q -> 0 <= b -> 0 <= c -> 0 <= d -> Rabs (D2 c d q b) <= q * q * b.
Proof.
  intros. rewrite D2_value by auto. destruct (k_pairs c d q b) as (-> & _ & ->). pose proof (width q b c d ltac:(lra) ltac:(lra)) as W.
  eapply Rle_trans; [apply (is_RInt_bound _ _ _ _ (1 / 2 * (q * b)) (k_order q b c d) (int2 q b _ _))|].
  - intros k Hk. destruct (k_in_range _ _ _ _ _ Hk) as (B1 & B2).
    pose proof (opp_dot_bound q b k ltac:(lra) ltac:(lra) B1) as O1.
    rewrite Rabs_mult. rewrite (Rabs_pos_eq (1 / 2)) by lra. apply Rmult_le_compat_l; [lra|]. apply Rabs_le. lra.
  - assert (0 <= q * b) by nra. nra.
Qed.
Lemma D3_lim b c d : 0 <= b -> 0 <= c -> 0 <= d -> lim0 (fun q => D3 q b c d / q) 0.
Proof.
  intros. apply (lim0_small _ (b * c * d) 1); [lra|]. intros q Hq.
  unfold Rdiv. rewrite Rabs_mult, (Rabs_pos_eq (/ q)) by (left; apply Rinv_0_lt_compat; lra).
  apply Rmult_le_reg_r with q; [lra|]. rewrite Rmult_assoc, Rinv_l by lra.
  pose proof (D3_small q b c d ltac:(lra) ltac:(lra) ltac:(lra) ltac:(lra)). lra.
Qed.
Lemma D2_other_lim b c d : 0 <= b -> 0 <= c -> 0 <= d -> lim0 (fun q => D2 c d q b / q) 0.
Proof.
  intros. apply (lim0_small _ b 1); [lra|]. intros q Hq.
  unfold Rdiv. rewrite Rabs_mult, (Rabs_pos_eq (/ q)) by (left; apply Rinv_0_lt_compat; lra).
  apply Rmult_le_reg_r with q; [lra|]. rewrite Rmult_assoc, Rinv_l by lra.
  pose proof (D2_small q b c d ltac:(lra) ltac:(lra) ltac:(lra) ltac:(lra)). lra.
Qed.

(* ---------- the whole kernel ---------- *)
Definition en (q m : R) : R := sqrt (q * q + m * m).
Lemma en_pos q m : 0 < m -> 0 < en q m.
Proof. intros. unfold en. apply sqrt_lt_R0. nra. Qed.
Lemma en_lim m : 0 < m -> lim0 (fun q => en q m) m.
Proof.
  intros Hm. assert (HC : continuity_pt (fun q => en q m) 0).
  { unfold en. apply (continuity_pt_comp (fun q => q * q + m * m) sqrt).
    - apply (continuity_pt_plus (fun q => q * q) (fun _ => m * m)).
      + apply (continuity_pt_mult (fun q => q) (fun q => q)); apply derivable_continuous_pt, derivable_pt_id.
      + apply continuity_pt_const. intros a b. reflexivity.
    - apply continuity_pt_sqrt. nra. }
  intros eps He. destruct (HC eps He) as (d & Hd & HD). exists d. split; [exact Hd|]. intros q Hq.
  specialize (HD q). simpl in HD. unfold R_dist in HD.
  replace m with (en 0 m) at 2.
  - apply HD. split; [split; [exact I|lra]|]. rewrite Rminus_0_r, Rabs_pos_eq; lra.
  - unfold en. replace (0 * 0 + m * m) with (m * m) by ring. apply sqrt_square. lra.
Qed.
Lemma inv_en_lim m : 0 < m -> lim0 (fun q => / en q m) (/ m).
Proof. intros Hm. apply lim0_iff. apply limit_inv; [|lra]. apply lim0_iff. now apply en_lim. Qed.

Ltac limz := repeat match goal with
  | |- lim0 (fun q => @?f q + @?g q) _ => apply (lim0_plus f g)
  | |- lim0 (fun q => @?f q * @?g q) _ => apply (lim0_mult f g)
  end.

Lemma K1_lim K1 b c d Eb Ec Ed s t m0 : 0 <= b -> 0 <= c -> 0 <= d -> 0 < m0 ->
  lim0 (fun q => K1 * (en q m0 * Eb * Ec * Ed * D1 q b c d + s * t * D3 q b c d
                       + en q m0 * Eb * t * D2 q b c d + Ec * Ed * s * D2 c d q b) / (q * en q m0))
       (K1 * (Eb * Ec * Ed * Db1 b c d + t * Eb * Db2 b c d)).
Proof.
  intros Hb Hc Hd Hm.
  apply lim0_ext with (d := 1) (g := fun q => K1 * (Eb * Ec * Ed * (D1 q b c d / q) + s * t * ((D3 q b c d / q) * / en q m0)
     + Eb * t * (D2 q b c d / q) + Ec * Ed * s * ((D2 c d q b / q) * / en q m0))); [lra| |].
  { intros q Hq. pose proof (en_pos q m0 Hm). field. lra. }
  apply lim0_eq with (K1 * (Eb * Ec * Ed * Db1 b c d + s * t * (0 * / m0) + Eb * t * Db2 b c d + Ec * Ed * s * (0 * / m0))); [|ring].
  apply lim0_mult; [apply lim0_const|].
  apply lim0_plus; [apply lim0_plus; [apply lim0_plus|]|]; (apply lim0_mult; [apply lim0_const|]).
  - now apply D1_lim.
  - apply lim0_mult; [now apply D3_lim|now apply inv_en_lim].
  - now apply D2_lim.
  - apply lim0_mult; [now apply D2_other_lim|now apply inv_en_lim].
Qed.
Lemma K2_lim_first K2 mb b c d Ec Ed t m0 : 0 <= b -> 0 <= c -> 0 <= d -> 0 < m0 ->
  lim0 (fun q => K2 * m0 * mb * (Ec * Ed * D1 q b c d + t * D2 q b c d) / (q * en q m0))
       (K2 * (mb * (Ec * Ed * Db1 b c d + t * Db2 b c d))).
Proof.
  intros Hb Hc Hd Hm.
  apply lim0_ext with (d := 1) (g := fun q => K2 * m0 * mb * / en q m0 * (Ec * Ed * (D1 q b c d / q) + t * (D2 q b c d / q))); [lra| |].
  { intros q Hq. pose proof (en_pos q m0 Hm). field. lra. }
  apply lim0_eq with (K2 * m0 * mb * / m0 * (Ec * Ed * Db1 b c d + t * Db2 b c d)); [|field; lra].
  apply lim0_mult; [apply lim0_mult; [apply lim0_const|now apply inv_en_lim]|].
  apply lim0_plus; (apply lim0_mult; [apply lim0_const|]); [now apply D1_lim|now apply D2_lim].
Qed.
Lemma K2_lim_second K2 ma mb a b d Ed t m0 : 0 <= a -> 0 <= b -> 0 <= d -> 0 < m0 ->
  lim0 (fun q => K2 * ma * mb * (en q m0 * Ed * D1 q d a b + t * D2 a b q d) / (q * en q m0))
       (K2 * (ma * mb * Ed * Db1 d a b)).
Proof.
  intros Ha Hb Hd Hm.
  apply lim0_ext with (d := 1) (g := fun q => K2 * ma * mb * (Ed * (D1 q d a b / q) + t * ((D2 a b q d / q) * / en q m0))); [lra| |].
  { intros q Hq. pose proof (en_pos q m0 Hm). field. lra. }
  apply lim0_eq with (K2 * ma * mb * (Ed * Db1 d a b + t * (0 * / m0))); [|ring].
  apply lim0_mult; [apply lim0_const|]. apply lim0_plus; (apply lim0_mult; [apply lim0_const|]).
  - now apply D1_lim.
  - apply lim0_mult; [now apply D2_other_lim|now apply inv_en_lim].
Qed.

Definition upd0 (f : nat -> R) (v : R) (n : nat) : R := match n with O => v | _ => f n end.
Lemma Dfun_split p E m K1 K2 o sides : Dfun p E m K1 K2 o sides = Dfun p E m K1 0 o sides + Dfun p E m 0 K2 o sides.
Proof.
  destruct o as [[[i j] k] l]. unfold Dfun. destruct (Req_EM_T 0 0) as [_|X]; [|congruence].
  destruct (Req_EM_T K1 0); destruct (Req_EM_T K2 0); ring.
Qed.
Lemma Db_split p E m K1 K2 o sides : Db p E m K1 K2 o sides = Db p E m K1 0 o sides + Db p E m 0 K2 o sides.
Proof.
  destruct o as [[[i j] k] l]. unfold Db. destruct (Req_EM_T 0 0) as [_|X]; [|congruence].
  destruct (Req_EM_T K1 0); destruct (Req_EM_T K2 0); ring.
Qed.
Lemma Dfun_K2 p E m K2 i j k l sides : is_order (i, j, k, l) ->
  Dfun p E m 0 K2 (i, j, k, l) sides =
  K2 * m i * m j * (E k * E l * D1 (p i) (p j) (p k) (p l) + IZR (sides k * sides l) * D2 (p i) (p j) (p k) (p l)).
Proof.
  intros Ho. unfold Dfun, is_order in *. destruct (Req_EM_T 0 0) as [_|X]; [|congruence].
  rewrite (D1_perm _ _ _ _ _ _ _ _ (order_map p _ _ _ _ Ho)). destruct (Req_EM_T K2 0) as [->|_]; ring.
Qed.

Lemma upd0_S f v n : n <> 0%nat -> upd0 f v n = f n.
Proof. destruct n; [congruence|reflexivity]. Qed.
Lemma order_nodup i j k l : Permutation [i; j; k; l] [0; 1; 2; 3]%nat -> NoDup [i; j; k; l].
Proof.
  intros H. eapply Permutation_NoDup; [symmetry; exact H|].
  repeat constructor; cbn; intuition lia.
Qed.
(* position of particle 0 in the order *)
Lemma order_cases i j k l : Permutation [i; j; k; l] [0; 1; 2; 3]%nat ->
  (i = 0 /\ j <> 0 /\ k <> 0 /\ l <> 0 /\ Permutation [j; k; l] [1; 2; 3])%nat \/
  (j = 0 /\ i <> 0 /\ k <> 0 /\ l <> 0 /\ Permutation [i; k; l] [1; 2; 3])%nat \/
  (k = 0 /\ l <> 0 /\ i <> 0 /\ j <> 0 /\ Permutation [l; i; j] [1; 2; 3])%nat \/
  (l = 0 /\ k <> 0 /\ i <> 0 /\ j <> 0 /\ Permutation [k; i; j] [1; 2; 3])%nat.
Proof.
  intros H. pose proof (order_nodup _ _ _ _ H) as HN.
  assert (HI : In 0%nat [i; j; k; l]) by (eapply Permutation_in; [symmetry; exact H|now left]).
  inversion HN as [|? ? N1 R1]; subst. inversion R1 as [|? ? N2 R2]; subst. inversion R2 as [|? ? N3 R3]; subst.
  cbn in N1, N2, N3.
  destruct HI as [-> |[-> |[-> |[-> |[]]]]].
  - left. repeat split; try tauto. eapply Permutation_cons_inv; exact H.
  - right; left. repeat split; try tauto; try (intros ->; tauto). eapply Permutation_cons_inv. eapply perm_trans; [apply perm_swap|exact H].
  - right; right; left. repeat split; try tauto; try (intros ->; tauto). eapply Permutation_cons_inv. eapply perm_trans; [|exact H].
    apply perm_trans with ([0; l] ++ [i; j])%nat; [reflexivity|]. eapply perm_trans; [apply Permutation_app_comm|]. reflexivity.
  - right; right; right. repeat split; try tauto; try (intros ->; tauto). eapply Permutation_cons_inv. eapply perm_trans; [|exact H].
    apply perm_trans with [k; 0; i; j]%nat; [apply perm_swap|].
    apply perm_trans with ([k; 0] ++ [i; j])%nat; [reflexivity|]. eapply perm_trans; [apply Permutation_app_comm|]. reflexivity.
Qed.
Lemma nz_lt_pos (p : nat -> R) (n : nat) : (forall n, (n < 4)%nat -> 0 <= p n) -> (n < 4)%nat -> 0 <= p n.
Proof. auto. Qed.

Lemma Db_K1 p E m K1 i j k l sides :
  Db p E m K1 0 (i, j, k, l) sides =
  K1 * (E 1%nat * E 2%nat * E 3%nat * Db1 (p 1%nat) (p 2%nat) (p 3%nat)
               + (if (i * j =? 0)%nat then IZR (sides k * sides l) * E (i + j)%nat * Db2 (p (i + j)%nat) (p k) (p l)
                  else if (k * l =? 0)%nat then IZR (sides i * sides j) * E (k + l)%nat * Db2 (p (k + l)%nat) (p i) (p j)
                  else 0)).
Proof.
  unfold Db. destruct (Req_EM_T 0 0) as [_|X]; [|congruence]. destruct (Req_EM_T K1 0) as [->|_]; ring.
Qed.
Lemma Db_K2 p E m K2 i j k l sides :
  Db p E m 0 K2 (i, j, k, l) sides =
  K2 * (if (i * j =? 0)%nat
                    then m (i + j)%nat * (E k * E l * Db1 (p 1%nat) (p 2%nat) (p 3%nat) + IZR (sides k * sides l) * Db2 (p (i + j)%nat) (p k) (p l))
                    else if (k * l =? 0)%nat then m i * m j * E (k + l)%nat * Db1 (p 1%nat) (p 2%nat) (p 3%nat)
                    else 0).
Proof.
  unfold Db. destruct (Req_EM_T 0 0) as [_|X]; [|congruence]. destruct (Req_EM_T K2 0) as [->|_]; ring.
Qed.
Lemma prod3_perm a b c x y z : Permutation [a; b; c] [x; y; z] -> a * b * c = x * y * z.
Proof.
  intros H. pose proof (prod4_perm 1 a b c 1 x y z (perm_skip 1 H)). lra.
Qed.
Lemma mul_nz i j : i <> 0%nat -> j <> 0%nat -> (i * j =? 0)%nat = false.
Proof. intros. apply Nat.eqb_neq. lia. Qed.

(* the three parts of the kernel for any energy e(q) of the first particle *)
Definition first3 (p : nat -> R) (b c d : R) : Prop :=
  0 <= b /\ 0 <= c /\ 0 <= d /\ Permutation [b; c; d] [p 1%nat; p 2%nat; p 3%nat].
Lemma first3_perm p x y z : (forall n, (n < 4)%nat -> 0 <= p n) -> (x < 4)%nat -> (y < 4)%nat -> (z < 4)%nat ->
  Permutation [x; y; z] [1; 2; 3]%nat -> first3 p (p x) (p y) (p z).
Proof. intros Hp Hx Hy Hz H. repeat split; auto. exact (Permutation_map p H). Qed.
Lemma kernel_lim_gen p E m K1 K2 i j k l sides e e0 : is_order (i, j, k, l) -> (forall n, (n < 4)%nat -> 0 <= p n) ->
  (forall q, 0 < q < 1 -> 0 < e q) ->
  (forall b c d Eb Ec Ed s t, first3 p b c d ->
    lim0 (fun q => K1 * (e q * Eb * Ec * Ed * D1 q b c d + s * t * D3 q b c d
                         + e q * Eb * t * D2 q b c d + Ec * Ed * s * D2 c d q b) / (q * e q))
         (K1 * (Eb * Ec * Ed * Db1 b c d + t * Eb * Db2 b c d))) ->
  (forall mb b c d Ec Ed t, i = 0%nat \/ j = 0%nat -> first3 p b c d ->
    lim0 (fun q => K2 * m 0%nat * mb * (Ec * Ed * D1 q b c d + t * D2 q b c d) / (q * e q))
         (K2 * (mb * (Ec * Ed * Db1 b c d + t * Db2 b c d)))) ->
  (forall ma mb a b d Ed t, first3 p d a b ->
    lim0 (fun q => K2 * ma * mb * (e q * Ed * D1 q d a b + t * D2 a b q d) / (q * e q))
         (K2 * (ma * mb * Ed * Db1 d a b))) ->
  lim0 (fun q => Dfun (upd0 p q) (upd0 E (e q)) m K1 K2 (i, j, k, l) sides / (q * e q))
       (Db (upd0 p 0) (upd0 E e0) m K1 K2 (i, j, k, l) sides).
Proof.
  intros Ho Hp Hm H1 H2 H3. pose proof Ho as Ho'. unfold is_order in Ho'. destruct (order_lt _ _ _ _ Ho') as (Li & Lj & Lk & Ll).
  rewrite Db_split.
  assert (HPOS : forall q, 0 < q < 1 -> forall n, (n < 4)%nat -> 0 <= upd0 p q n) by (intros q Hq [|n] Hn; cbn; [lra|now apply Hp]).
  apply lim0_ext with (d := 1) (g := fun q =>
     Dfun (upd0 p q) (upd0 E (e q)) m K1 0 (i, j, k, l) sides / (q * e q)
     + Dfun (upd0 p q) (upd0 E (e q)) m 0 K2 (i, j, k, l) sides / (q * e q)); [lra| |].
  { intros q Hq. rewrite Dfun_split. pose proof (Hm q Hq). field. lra. }
  rewrite Db_K1, Db_K2. cbn [upd0].
  destruct (order_cases _ _ _ _ Ho') as [(-> & N1 & N2 & N3 & HP)|[(-> & N1 & N2 & N3 & HP)|[(-> & N1 & N2 & N3 & HP)|(-> & N1 & N2 & N3 & HP)]]].
  - pose proof (Permutation_map p HP) as HPp. pose proof (Permutation_map E HP) as HPE. cbn in HPp, HPE.
    rewrite <- (Db1_perm (p j) (p k) (p l)) by (auto || (apply Hp; lia)). rewrite <- (prod3_perm _ _ _ _ _ _ HPE).
    cbn [Nat.mul Nat.eqb Nat.add]. rewrite !upd0_S by auto.
    apply lim0_plus.
    + eapply lim0_ext with (d := 1); [lra| |apply (H1 (p j) (p k) (p l) (E j) (E k) (E l) (IZR (sides 0%nat * sides j)) (IZR (sides k * sides l))); first [now left | now right | now apply first3_perm]].
      intros q Hq. cbv beta. rewrite Dfun_K1 by (auto; now apply HPOS). cbn [upd0]. rewrite !upd0_S by auto. reflexivity.
    + eapply lim0_ext with (d := 1); [lra| |apply (H2 (m j) (p j) (p k) (p l) (E k) (E l) (IZR (sides k * sides l))); first [now left | now right | now apply first3_perm]].
      intros q Hq. cbv beta. rewrite Dfun_K2 by auto. cbn [upd0]. rewrite !upd0_S by auto. reflexivity.
  - pose proof (Permutation_map p HP) as HPp. pose proof (Permutation_map E HP) as HPE. cbn in HPp, HPE.
    rewrite <- (Db1_perm (p i) (p k) (p l)) by (auto || (apply Hp; lia)). rewrite <- (prod3_perm _ _ _ _ _ _ HPE).
    rewrite Nat.mul_0_r, Nat.add_0_r. cbn [Nat.eqb]. rewrite !upd0_S by auto.
    apply lim0_plus.
    + eapply lim0_ext with (d := 1); [lra| |apply (H1 (p i) (p k) (p l) (E i) (E k) (E l) (IZR (sides i * sides 0%nat)) (IZR (sides k * sides l))); first [now left | now right | now apply first3_perm]].
      intros q Hq. cbv beta. rewrite Dfun_K1 by (auto; now apply HPOS). cbn [upd0]. rewrite !upd0_S by auto.
      rewrite (D1_swap12 (p i) q), (D3_swap12 (p i) q), (D2_swap12 (p i) q), (D2_swap34 (p k) (p l) (p i) q) by (auto || lra || (apply Hp; lia)).
      f_equal. ring.
    + eapply lim0_ext with (d := 1); [lra| |apply (H2 (m i) (p i) (p k) (p l) (E k) (E l) (IZR (sides k * sides l))); first [now left | now right | now apply first3_perm]].
      intros q Hq. cbv beta. rewrite Dfun_K2 by auto. cbn [upd0]. rewrite !upd0_S by auto.
      rewrite (D1_swap12 (p i) q), (D2_swap12 (p i) q) by (auto || lra || (apply Hp; lia)). f_equal. ring.
  - pose proof (Permutation_map p HP) as HPp. pose proof (Permutation_map E HP) as HPE. cbn in HPp, HPE.
    rewrite <- (Db1_perm (p l) (p i) (p j)) by (auto || (apply Hp; lia)). rewrite <- (prod3_perm _ _ _ _ _ _ HPE).
    rewrite (mul_nz i j) by auto. cbn [Nat.mul Nat.eqb Nat.add]. rewrite !upd0_S by auto.
    assert (X1 : forall q, D1 (p i) (p j) q (p l) = D1 q (p l) (p i) (p j)).
    { intros q. apply D1_perm. apply (Permutation_app_comm [p i; p j] [q; p l]). }
    apply lim0_plus.
    + eapply lim0_ext with (d := 1); [lra| |apply (H1 (p l) (p i) (p j) (E l) (E i) (E j) (IZR (sides 0%nat * sides l)) (IZR (sides i * sides j))); first [now left | now right | now apply first3_perm]].
      intros q Hq. cbv beta. rewrite Dfun_K1 by (auto; now apply HPOS). cbn [upd0]. rewrite !upd0_S by auto.
      rewrite X1, (D3_pairs (p i) (p j) q (p l)) by (auto || lra || (apply Hp; lia)). f_equal. ring.
    + eapply lim0_ext with (d := 1); [lra| |apply (H3 (m i) (m j) (p i) (p j) (p l) (E l) (IZR (sides 0%nat * sides l))); first [now left | now right | now apply first3_perm]].
      intros q Hq. cbv beta. rewrite Dfun_K2 by auto. cbn [upd0]. rewrite !upd0_S by auto. now rewrite X1.
  - pose proof (Permutation_map p HP) as HPp. pose proof (Permutation_map E HP) as HPE. cbn in HPp, HPE.
    rewrite <- (Db1_perm (p k) (p i) (p j)) by (auto || (apply Hp; lia)). rewrite <- (prod3_perm _ _ _ _ _ _ HPE).
    rewrite (mul_nz i j) by auto. rewrite Nat.mul_0_r, Nat.add_0_r. cbn [Nat.eqb]. rewrite !upd0_S by auto.
    assert (X1 : forall q, D1 (p i) (p j) (p k) q = D1 q (p k) (p i) (p j)).
    { intros q. apply D1_perm. eapply perm_trans; [apply (Permutation_app_comm [p i; p j] [p k; q])|]. apply perm_swap. }
    apply lim0_plus.
    + eapply lim0_ext with (d := 1); [lra| |apply (H1 (p k) (p i) (p j) (E k) (E i) (E j) (IZR (sides k * sides 0%nat)) (IZR (sides i * sides j))); first [now left | now right | now apply first3_perm]].
      intros q Hq. cbv beta. rewrite Dfun_K1 by (auto; now apply HPOS). cbn [upd0]. rewrite !upd0_S by auto.
      rewrite X1, (D3_pairs (p i) (p j) (p k) q), (D3_swap12 (p k) q), (D2_swap34 (p i) (p j) (p k) q), (D2_swap12 (p k) q) by (auto || lra || (apply Hp; lia)).
      f_equal. ring.
    + eapply lim0_ext with (d := 1); [lra| |apply (H3 (m i) (m j) (p i) (p j) (p k) (E k) (IZR (sides k * sides 0%nat))); first [now left | now right | now apply first3_perm]].
      intros q Hq. cbv beta. rewrite Dfun_K2 by auto. cbn [upd0]. rewrite !upd0_S by auto.
      rewrite X1, (D2_swap34 (p i) (p j) (p k) q) by (auto || lra || (apply Hp; lia)). f_equal. ring.
Qed.

Lemma kernel_lim p E m K1 K2 i j k l sides : is_order (i, j, k, l) -> (forall n, (n < 4)%nat -> 0 <= p n) -> 0 < m 0%nat ->
  lim0 (fun q => Dfun (upd0 p q) (upd0 E (en q (m 0%nat))) m K1 K2 (i, j, k, l) sides / (q * en q (m 0%nat)))
       (Db (upd0 p 0) (upd0 E (m 0%nat)) m K1 K2 (i, j, k, l) sides).
Proof.
  intros Ho Hp Hm. apply (kernel_lim_gen p E m K1 K2 i j k l sides (fun q => en q (m 0%nat))); auto.
  - intros. now apply en_pos.
  - intros b c d Eb Ec Ed s t (Hb & Hc & Hd & _). now apply K1_lim.
  - intros mb b c d Ec Ed t _ (Hb & Hc & Hd & _). now apply K2_lim_first.
  - intros ma mb a b d Ed t (Hb & Hc & Hd & _). now apply K2_lim_second.
Qed.

(* ---------- massless particle at zero momentum ---------- *)
Lemma ks_interior q b c d : 0 < q -> Rabs (c - d) < b -> b < c + d -> q < Rmin (b - Rabs (c - d)) (c + d - b) ->
  klo q b c d = b - q /\ kend q b c d = b + q.
Proof.
  intros Hq H1 H2 H3. pose proof (Rmin_l (b - Rabs (c - d)) (c + d - b)). pose proof (Rmin_r (b - Rabs (c - d)) (c + d - b)).
  pose proof (Rabs_pos (c - d)). unfold kend, klo, khi.
  rewrite (Rabs_left1 (q - b)) by lra. rewrite (Rmax_left (- (q - b))) by lra. rewrite Rmin_left by lra. rewrite Rmax_right by lra. lra.
Qed.
Lemma ks_exterior q b c d : 0 < q -> 0 <= b -> 0 <= c -> 0 <= d -> b < Rabs (c - d) \/ c + d < b -> q < Rmax (Rabs (c - d) - b) (b - c - d) ->
  kend q b c d = klo q b c d.
Proof.
  intros Hq Hb Hc Hd H1 H2. unfold kend. apply Rmax_left. unfold khi, klo.
  destruct H1 as [H1|H1].
  - assert (b - c - d <= Rabs (c - d) - b).
    { assert (Rabs (c - d) <= c + d) by (apply Rabs_le; lra). lra. }
    rewrite Rmax_left in H2 by lra. eapply Rle_trans; [apply Rmin_l|]. eapply Rle_trans; [|apply Rmax_r]. lra.
  - assert (Rabs (c - d) <= c + d) by (apply Rabs_le; lra).
    rewrite Rmax_right in H2 by lra. eapply Rle_trans; [apply Rmin_r|]. eapply Rle_trans; [|apply Rmax_l].
    rewrite Rabs_left1 by lra. lra.
Qed.
Definition nondegenerate (b c d : R) : Prop := b <> c + d /\ b <> Rabs (c - d).
Lemma nondegenerate_split b c d : 0 <= b -> 0 <= c -> 0 <= d -> nondegenerate b c d ->
  (Rabs (c - d) < b /\ b < c + d) \/ (b < Rabs (c - d) \/ c + d < b).
Proof.
  intros Hb Hc Hd (H1 & H2). destruct (Rlt_dec b (Rabs (c - d))); [right; now left|]. destruct (Rlt_dec (c + d) b); [right; now right|]. left. lra.
Qed.
Lemma D2_other_massless b c d : 0 <= b -> 0 <= c -> 0 <= d -> nondegenerate b c d -> lim0 (fun q => D2 c d q b / (q * q)) 0.
Proof.
  intros Hb Hc Hd HN. destruct (nondegenerate_split b c d Hb Hc Hd HN) as [(H1 & H2)|H].
  - eapply lim0_ext with (d := Rmin (b - Rabs (c - d)) (c + d - b)) (g := fun q => / 3 * q); [apply Rmin_glb_lt; lra| |].
    + intros q Hq. rewrite D2_value by lra. destruct (k_pairs c d q b) as (-> & _ & ->).
      destruct (ks_interior q b c d) as (-> & ->); try lra. unfold cub. field. lra.
    + apply lim0_eq with (/ 3 * 0); [|ring]. apply lim0_mult; [apply lim0_const|apply lim0_id].
  - eapply lim0_ext with (d := Rmax (Rabs (c - d) - b) (b - c - d)); [| |apply lim0_const].
    + destruct H; [eapply Rlt_le_trans; [|apply Rmax_l]; lra|eapply Rlt_le_trans; [|apply Rmax_r]; lra].
    + intros q Hq. cbv beta. rewrite D2_value by lra. destruct (k_pairs c d q b) as (-> & _ & ->).
      rewrite ks_exterior by (auto; lra). field. lra.
Qed.
Lemma D3_massless b c d : 0 <= b -> 0 <= c -> 0 <= d -> nondegenerate b c d -> lim0 (fun q => D3 q b c d / (q * q)) 0.
Proof.
  intros Hb Hc Hd HN. destruct (nondegenerate_split b c d Hb Hc Hd HN) as [(H1 & H2)|H].
  - eapply lim0_ext with (d := Rmin (b - Rabs (c - d)) (c + d - b))
      (g := fun q => (1 / 6 * (c ^ 2 + d ^ 2) + 1 / 6 * b ^ 2) * q + - (1 / 30) * (q * (q * q))); [apply Rmin_glb_lt; lra| |].
    + intros q Hq. rewrite D3_value by lra. destruct (ks_interior q b c d) as (-> & ->); try lra. unfold qui. field. lra.
    + apply lim0_eq with ((1 / 6 * (c ^ 2 + d ^ 2) + 1 / 6 * b ^ 2) * 0 + - (1 / 30) * (0 * (0 * 0))); [|ring].
      apply lim0_plus; (apply lim0_mult; [apply lim0_const|]); [apply lim0_id|]. apply lim0_mult; [apply lim0_id|]. apply lim0_mult; apply lim0_id.
  - eapply lim0_ext with (d := Rmax (Rabs (c - d) - b) (b - c - d)); [| |apply lim0_const].
    + destruct H; [eapply Rlt_le_trans; [|apply Rmax_l]; lra|eapply Rlt_le_trans; [|apply Rmax_r]; lra].
    + intros q Hq. cbv beta. rewrite D3_value by lra. rewrite ks_exterior by (auto; lra). field. lra.
Qed.

Lemma en_massless q : 0 < q -> en q 0 = q.
Proof. intros. unfold en. replace (q * q + 0 * 0) with (q * q) by ring. apply sqrt_square. lra. Qed.
Lemma perm3_inv {A} (a b c x y z : A) : Permutation [a; b; c] [x; y; z] ->
  (a = x /\ b = y /\ c = z) \/ (a = x /\ b = z /\ c = y) \/ (a = y /\ b = x /\ c = z) \/
  (a = y /\ b = z /\ c = x) \/ (a = z /\ b = x /\ c = y) \/ (a = z /\ b = y /\ c = x).
Proof.
  intros H. assert (HI : In a [x; y; z]) by (eapply Permutation_in; [exact H|now left]).
  assert (G : forall u v w, Permutation [x; y; z] [u; v; w] -> a = u -> (b = v /\ c = w) \/ (b = w /\ c = v)).
  { intros u v w HP <-. assert (K := Permutation_cons_inv (Permutation_trans H HP)).
    apply Permutation_sym in K.
    destruct (Permutation_length_2_inv (Permutation_sym K)) as [E|E]; injection E as -> ->; auto. }
  destruct HI as [E|[E|[E|[]]]].
  - destruct (G x y z (Permutation_refl _) (eq_sym E)) as [[-> ->]|[-> ->]]; subst; tauto.
  - destruct (G y x z (perm_swap _ _ _) (eq_sym E)) as [[-> ->]|[-> ->]]; subst; tauto.
  - destruct (G z x y (Permutation_app_comm [x; y] [z]) (eq_sym E)) as [[-> ->]|[-> ->]]; subst; tauto.
Qed.
Definition open_triangle (a b c : R) : Prop := a <> b + c /\ b <> c + a /\ c <> a + b.
Lemma open_triangle_perm a b c x y z : Permutation [a; b; c] [x; y; z] -> open_triangle x y z -> open_triangle a b c.
Proof.
  intros HP (H1 & H2 & H3). 
  apply perm3_inv in HP. unfold open_triangle. destruct HP as [E|[E|[E|[E|[E|E]]]]]; destruct E as (-> & -> & ->); lra.
Qed.
Lemma open_nondegenerate a b c : open_triangle a b c -> nondegenerate a b c.
Proof. intros (H1 & H2 & H3). split; [exact H1|]. unfold Rabs. destruct (Rcase_abs (b - c)); lra. Qed.
Lemma kernel_lim_massless p E m K1 K2 i j k l sides : is_order (i, j, k, l) -> (forall n, (n < 4)%nat -> 0 <= p n) ->
  open_triangle (p 1%nat) (p 2%nat) (p 3%nat) -> (i <> 0%nat /\ j <> 0%nat) \/ K2 = 0 ->
  lim0 (fun q => Dfun (upd0 p q) (upd0 E q) m K1 K2 (i, j, k, l) sides / (q * q))
       (Db (upd0 p 0) (upd0 E 0) m K1 K2 (i, j, k, l) sides).
Proof.
  intros Ho Hp HT HK. apply (kernel_lim_gen p E m K1 K2 i j k l sides (fun q => q)); auto.
  - intros. lra.
  - intros b c d Eb Ec Ed s t (Hb & Hc & Hd & HP). apply (open_triangle_perm _ _ _ _ _ _ HP) in HT. apply open_nondegenerate in HT.
    apply lim0_ext with (d := 1) (g := fun q => K1 * (Eb * Ec * Ed * (D1 q b c d / q) + s * t * (D3 q b c d / (q * q))
      + Eb * t * (D2 q b c d / q) + Ec * Ed * s * (D2 c d q b / (q * q)))); [lra| |].
    { intros q Hq. field. lra. }
    apply lim0_eq with (K1 * (Eb * Ec * Ed * Db1 b c d + s * t * 0 + Eb * t * Db2 b c d + Ec * Ed * s * 0)); [|ring].
    apply lim0_mult; [apply lim0_const|].
    apply lim0_plus; [apply lim0_plus; [apply lim0_plus|]|]; (apply lim0_mult; [apply lim0_const|]).
    + now apply D1_lim. + now apply D3_massless. + now apply D2_lim. + now apply D2_other_massless.
  - intros mb b c d Ec Ed t H0. destruct HK as [HK| ->]; [lia|]. intros _.
    apply lim0_ext with (d := 1) (g := fun _ => 0); [lra| |apply lim0_eq with 0; [apply lim0_const|ring]].
    intros q Hq. field. lra.
  - intros ma mb a b d Ed t (Hb & Hc & Hd & HP). apply (open_triangle_perm _ _ _ _ _ _ HP) in HT. apply open_nondegenerate in HT.
    apply lim0_ext with (d := 1) (g := fun q => K2 * ma * mb * (Ed * (D1 q d a b / q) + t * (D2 a b q d / (q * q)))); [lra| |].
    { intros q Hq. field. lra. }
    apply lim0_eq with (K2 * ma * mb * (Ed * Db1 d a b + t * 0)); [|ring].
    apply lim0_mult; [apply lim0_const|]. apply lim0_plus; (apply lim0_mult; [apply lim0_const|]).
    + now apply D1_lim. + now apply D2_other_massless.
Qed.

(* positivity of the phase-space length *)
Definition polygon (a b c d : R) : Prop := a < b + c + d /\ b < c + d + a /\ c < d + a + b /\ d < a + b + c.
Lemma D1_pos_iff a b c d : 0 <= a -> 0 <= b -> 0 <= c -> 0 <= d ->
  (0 < D1 a b c d <-> polygon a b c d /\ 0 < a /\ 0 < b /\ 0 < c /\ 0 < d).
Proof.
  intros Ha Hb Hc Hd. rewrite D1_value by auto. unfold kend. split.
  - intros H. assert (H1 : klo a b c d < khi a b c d).
    { destruct (Rlt_dec (klo a b c d) (khi a b c d)) as [|N]; auto. rewrite Rmax_left in H by lra. lra. }
    unfold klo, khi in H1.
    pose proof (Rmax_l (Rabs (a - b)) (Rabs (c - d))). pose proof (Rmax_r (Rabs (a - b)) (Rabs (c - d))).
    pose proof (Rmin_l (a + b) (c + d)). pose proof (Rmin_r (a + b) (c + d)).
    pose proof (Rle_abs (a - b)). pose proof (Rle_abs (c - d)).
    pose proof (Rle_abs (- (a - b))). pose proof (Rle_abs (- (c - d))). rewrite Rabs_Ropp in *. unfold polygon. lra.
  - intros ((P1 & P2 & P3 & P4) & Q1 & Q2 & Q3 & Q4).
    assert (H1 : klo a b c d < khi a b c d).
    { unfold klo, khi. apply Rmax_lub_lt; apply Rmin_glb_lt; apply Rabs_def1; lra. }
    rewrite Rmax_right by lra. lra.
Qed.
