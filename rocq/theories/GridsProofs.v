From Coq Require Import Reals Lra Psatz.
From Verif Require Import Base GridsModel.
Open Scope R_scope.

(* ---------- specification vocabulary ---------- *)
Definition incr (g : list R) : Prop := forall i j, (i < j)%nat -> (j < length g)%nat -> rnth g i < rnth g j.

Lemma rnth_map_seq f n i : (i < n)%nat -> rnth (map f (seq 0 n)) i = f i.
Proof.
  intros H. unfold rnth. rewrite (nth_indep _ 0 (f 0%nat)) by (rewrite map_length, seq_length; exact H).
  rewrite map_nth, seq_nth by exact H. reflexivity.
Qed.

(* ---------- linear grid ---------- *)
Lemma linspace_length lo hi n : length (linspace lo hi n) = n.
Proof.
  destruct n as [|[|k]]; try reflexivity. unfold linspace. rewrite app_length, map_length, seq_length. cbn. lia.
Qed.
Lemma linspace_nth lo hi n i : (2 <= n)%nat -> (i < n)%nat ->
  rnth (linspace lo hi n) i = lo + INR i * ((hi - lo) / INR (n - 1)).
Proof.
  intros Hn Hi. destruct n as [|[|k]]; try lia. unfold linspace, rnth.
  replace (S (S k) - 1)%nat with (S k) by lia.
  destruct (Nat.eq_dec i (S k)) as [->|Hne].
  - rewrite app_nth2 by (rewrite map_length, seq_length; lia).
    rewrite map_length, seq_length, Nat.sub_diag. cbn [nth]. field. apply not_0_INR. lia.
  - rewrite app_nth1 by (rewrite map_length, seq_length; lia).
    apply (rnth_map_seq (fun i => lo + INR i * ((hi - lo) / INR (S k)))). lia.
Qed.

Lemma linear_grid_props mx n : (2 <= n)%nat -> 0 < mx ->
  let g := linspace 0 mx n in
  length g = n /\ rnth g 0 = 0 /\ rnth g (n - 1) = mx /\ incr g /\
  (forall i, (S i < n)%nat -> rnth g (S i) - rnth g i = mx / INR (n - 1)).
Proof.
  intros Hn Hm g. assert (HN : 0 < INR (n - 1)) by (apply lt_0_INR; lia).
  assert (HX : 0 < (mx - 0) / INR (n - 1)) by (apply Rdiv_lt_0_compat; lra).
  split; [apply linspace_length|]. split; [unfold g; rewrite linspace_nth by lia; simpl; ring|].
  split; [unfold g; rewrite linspace_nth by lia; field; lra|]. split.
  - intros i j Hij Hj. unfold g in *. rewrite linspace_length in Hj. rewrite !linspace_nth by lia.
    apply Rplus_lt_compat_l. apply Rmult_lt_compat_r; [exact HX|]. now apply lt_INR.
  - intros i Hi. unfold g. rewrite !linspace_nth by lia. rewrite S_INR. field. lra.
Qed.

(* ---------- logarithmic grid ---------- *)
Lemma pow_base_lt b i j : 1 < b -> (i < j)%nat -> b ^ i < b ^ j.
Proof. intros. now apply Rlt_pow. Qed.

Lemma log_grid_props mx n : (2 <= n)%nat -> 0 < mx ->
  exists g, log_grid mx n None None = Some g /\
  length g = n /\ rnth g 0 = 0 /\ rnth g (n - 1) = mx /\ incr g /\
  (forall i, (S (S i) < n)%nat -> rnth g (S (S i)) - rnth g (S i) = 12 / 10 * (rnth g (S i) - rnth g i)).
Proof.
  intros Hn Hm. unfold log_grid. cbn [or_default or_default_n].
  destruct n as [|[|k]]; try lia.
  set (F := fun i => 0 + (mx - 0) * ((12 / 10) ^ i - 1) / ((12 / 10) ^ S k - 1)).
  assert (HB : 1 < (12 / 10) ^ S k).
  { replace 1 with ((12 / 10) ^ 0) by reflexivity. apply pow_base_lt; [lra|lia]. }
  assert (HK : 0 < mx / ((12 / 10) ^ S k - 1)) by (apply Rdiv_lt_0_compat; lra).
  assert (HF : forall i, F i = mx / ((12 / 10) ^ S k - 1) * ((12 / 10) ^ i - 1)) by (intros i; unfold F; field; lra).
  eexists. split; [reflexivity|].
  assert (HL : length (map F (seq 0 (S (S k)))) = S (S k)) by (now rewrite map_length, seq_length).
  split; [exact HL|]. split; [rewrite rnth_map_seq by lia; rewrite HF; simpl; ring|].
  replace (S (S k) - 1)%nat with (S k) by lia.
  split; [rewrite rnth_map_seq by lia; rewrite HF; field; lra|]. split.
  - intros i j Hij Hj. rewrite HL in Hj. rewrite !rnth_map_seq by lia. rewrite !HF.
    apply Rmult_lt_compat_l; [exact HK|]. pose proof (pow_base_lt (12/10) i j ltac:(lra) Hij). lra.
  - intros i Hi. rewrite !rnth_map_seq by lia. rewrite !HF. cbn [pow]. ring.
Qed.

(* ---------- heuristic grid ---------- *)
(* closed form of the temperature and of the step *)
Lemma heur_T_closed M aT c g : 0 < M -> 0 < aT -> 0 < c -> 0 < g ->
  heur_T M aT c g = M * c ^ 2 / (1 + sqrt (1 + 2 * g * c ^ 2 / aT)) ^ 2.
Proof.
  intros HM Ha Hc Hg. unfold heur_T.
  assert (Hc2 : 0 < c ^ 2) by nra. assert (Hgc : 0 < g * c ^ 2) by nra.
  set (s := sqrt (1 + 2 * g * c ^ 2 / aT)).
  assert (Hpos : 0 < 2 * g * c ^ 2 / aT) by (apply Rdiv_lt_0_compat; nra).
  assert (Hs : s * s = 1 + 2 * g * c ^ 2 / aT) by (apply sqrt_sqrt; lra).
  assert (Hs1 : 1 < s).
  { unfold s. rewrite <- sqrt_1 at 1. apply sqrt_lt_1; lra. }
  replace (sqrt (aT * (aT + 2 * g * c ^ 2))) with (aT * s).
  2:{ replace (aT * (aT + 2 * g * c ^ 2)) with ((aT * s) * (aT * s)).
      - symmetry. apply sqrt_square. nra.
      - replace (aT * s * (aT * s)) with (aT * aT * (s * s)) by ring. rewrite Hs. field. lra. }
  assert (Hg2 : g * c ^ 2 = aT * (s * s - 1) / 2) by (rewrite Hs; field; lra).
  replace (2 * g ^ 2 * c ^ 2) with (2 * (g * c ^ 2) * (g * c ^ 2) / c ^ 2) by (field; lra).
  replace (aT + g * c ^ 2 - aT * s) with (aT * (s - 1) ^ 2 / 2) by (rewrite Hg2; field).
  rewrite Hg2. field. split; [nra|]. split; [|lra]. intros X. assert (s * s - 1 = (s - 1) * (s + 1)) by ring. nra.
Qed.

Lemma heur_step M aT c g : 0 < M -> 0 < aT -> 0 < c -> 0 < g ->
  heur_next M aT c g = Rmax (g - aT * (1 + sqrt (1 + 2 * g * c ^ 2 / aT)) / (c * sqrt c)) 0.
Proof.
  intros HM Ha Hc Hg. unfold heur_next. cbn zeta. rewrite heur_T_closed by auto.
  assert (Hc2 : 0 < c ^ 2) by nra.
  assert (Hpos : 0 < 2 * g * c ^ 2 / aT) by (apply Rdiv_lt_0_compat; nra).
  set (s := sqrt (1 + 2 * g * c ^ 2 / aT)).
  assert (Hs0 : 0 <= s) by apply sqrt_pos.
  f_equal. f_equal.
  assert (Hsc : 0 < sqrt c) by (now apply sqrt_lt_R0).
  assert (Hsq : sqrt c * sqrt c = c) by (apply sqrt_sqrt; lra).
  replace (M * (M * c ^ 2 / (1 + s) ^ 2) / c) with ((M * sqrt c / (1 + s)) * (M * sqrt c / (1 + s))).
  2:{ replace (M * sqrt c / (1 + s) * (M * sqrt c / (1 + s))) with (M * M * (sqrt c * sqrt c) / (1 + s) ^ 2) by (field; lra).
      rewrite Hsq. field. split; lra. }
  rewrite sqrt_square.
  2:{ apply Rmult_le_pos; [nra|]. left. apply Rinv_0_lt_compat. lra. }
  replace (c * sqrt c) with (c ^ 2 / sqrt c).
  - field. repeat split; lra.
  - replace (c ^ 2) with (c * (sqrt c * sqrt c)) by (rewrite Hsq; ring). field. lra.
Qed.

Lemma heur_next_bounds M aT c g : 0 < M -> 0 < aT -> 0 < c -> 0 < g ->
  0 <= heur_next M aT c g < g /\
  (heur_next M aT c g = 0 \/ heur_next M aT c g <= g - 2 * aT / (c * sqrt c)).
Proof.
  intros HM Ha Hc Hg. rewrite heur_step by auto.
  assert (Hc2 : 0 < c ^ 2) by nra.
  assert (Hpos : 0 < 2 * g * c ^ 2 / aT) by (apply Rdiv_lt_0_compat; nra).
  assert (Hs1 : 1 < sqrt (1 + 2 * g * c ^ 2 / aT)).
  { rewrite <- sqrt_1 at 1. apply sqrt_lt_1; lra. }
  set (s := sqrt (1 + 2 * g * c ^ 2 / aT)) in *.
  assert (Hsc : 0 < sqrt c) by (now apply sqrt_lt_R0).
  assert (Hden : 0 < c * sqrt c) by nra.
  assert (HD : 2 * aT / (c * sqrt c) <= aT * (1 + s) / (c * sqrt c)).
  { unfold Rdiv. apply Rmult_le_compat_r; [left; now apply Rinv_0_lt_compat|]. nra. }
  assert (HP : 0 < 2 * aT / (c * sqrt c)) by (apply Rdiv_lt_0_compat; lra).
  unfold Rmax. destruct (Rle_dec _ _); split; try lra.
Qed.

(* desc-first view: the list is latest first, so strictly increasing *)
Definition dec_chain (M aT c : R) (l : list R) : Prop := incr l.

Lemma incr_cons a b l : a < b -> incr (b :: l) -> incr (a :: b :: l).
Proof.
  intros Hab H i j Hij Hj. destruct j as [|j]; [lia|]. destruct i as [|i].
  - unfold rnth. cbn [nth]. destruct j as [|j]; [exact Hab|].
    apply Rlt_trans with b; [exact Hab|]. apply (H 0%nat (S j)); [lia|]. cbn [length] in *. lia.
  - unfold rnth. cbn [nth]. apply (H i j); [lia|]. cbn [length] in *. lia.
Qed.

Lemma heur_loop_terminates M aT c : 0 < M -> 0 < aT -> 0 < c ->
  forall n g rest, 0 <= g -> g < INR n * (2 * aT / (c * sqrt c)) \/ g = 0 -> incr (g :: rest) ->
  exists l, (forall fuel, (n <= fuel)%nat -> heur_loop M aT c fuel (g :: rest) = Some l) /\
    incr l /\ rnth l 0 = 0 /\ last l 0 = last (g :: rest) 0 /\ (length rest < length l)%nat.
Proof.
  intros HM Ha Hc.
  assert (Hsc : 0 < sqrt c) by (now apply sqrt_lt_R0).
  assert (Hden : 0 < c * sqrt c) by nra.
  assert (HP : 0 < 2 * aT / (c * sqrt c)) by (apply Rdiv_lt_0_compat; lra).
  set (d := 2 * aT / (c * sqrt c)) in *.
  induction n as [|n IH]; intros g rest Hg Hb Hi.
  - assert (g = 0) as -> by (destruct Hb as [Hb|Hb]; [simpl in Hb; lra|exact Hb]).
    exists (0 :: rest). split.
    + intros fuel _. destruct fuel; cbn; (destruct (Rlt_dec 0 0); [lra|reflexivity]).
    + split; [exact Hi|]. repeat split; cbn; lia.
  - destruct (Rlt_dec 0 g) as [Hpos|Hnp].
    + destruct (heur_next_bounds M aT c g HM Ha Hc Hpos) as ((B1 & B2) & B3). fold d in B3.
      destruct (IH (heur_next M aT c g) (g :: rest)) as (l & L1 & L2 & L3 & L4 & L5).
      * exact B1.
      * destruct B3 as [B3|B3]; [right; exact B3|left].
        destruct Hb as [Hb|Hb]; [|lra]. rewrite S_INR in Hb. lra.
      * now apply incr_cons.
      * exists l. split.
        { intros fuel Hf. destruct fuel as [|fuel]; [lia|]. cbn [heur_loop].
          destruct (Rlt_dec 0 g); [|contradiction]. apply L1. lia. }
        split; [exact L2|]. split; [exact L3|]. split.
        { rewrite L4. reflexivity. }
        cbn [length] in L5. lia.
    + assert (g = 0) as -> by lra. exists (0 :: rest). split.
      * intros fuel _. destruct fuel; cbn; (destruct (Rlt_dec 0 0); [lra|reflexivity]).
      * split; [exact Hi|]. repeat split; cbn; lia.
Qed.

Lemma heur_first_pos second M tau aT b : 0 < second -> 0 < M -> 0 < tau -> 0 < aT -> 0 < b ->
  0 < heur_first second M tau aT b.
Proof.
  intros. unfold heur_first. cbn zeta.
  assert (HH : 0 < 1 / 2 / second) by (apply Rdiv_lt_0_compat; lra).
  assert (0 < 2 * (1 / 2 / second)) by lra.
  assert (0 < 2 * (1 / 2 / second) * b) by nra.
  assert (0 < 2 * (1 / 2 / second) * b * tau) by nra.
  assert (0 < sqrt (2 * (1 / 2 / second) * b * tau)) by (now apply sqrt_lt_R0).
  apply Rmult_lt_0_compat; [assumption|].
  pose proof (sqrt_pos (M * (aT / sqrt (2 * (1 / 2 / second) * b * tau)))). lra.
Qed.

Lemma nat_above r : exists N, r < INR N.
Proof.
  destruct (archimed r) as (H & _). exists (Z.to_nat (up r)). destruct (Z_le_gt_dec 0 (up r)) as [K|K].
  - rewrite INR_IZR_INZ, Z2Nat.id by exact K. lra.
  - pose proof (pos_INR (Z.to_nat (up r))). assert (IZR (up r) < 0) by (apply IZR_lt; lia). lra.
Qed.

Lemma heuristic_terminates second M tau aT b c :
  0 < second -> 0 < M -> 0 < tau -> 0 < aT -> 0 < b -> 0 < c ->
  exists N g, (forall fuel, (N <= fuel)%nat -> heuristic_grid second M tau aT b c fuel = Some g) /\
    incr g /\ rnth g 0 = 0 /\ last g 0 = heur_first second M tau aT b /\ (2 <= length g)%nat.
Proof.
  intros Hsec HM Ht Ha Hb Hc. set (g0 := heur_first second M tau aT b).
  assert (Hg0 : 0 < g0) by (now apply heur_first_pos).
  assert (Hsc : 0 < sqrt c) by (now apply sqrt_lt_R0).
  assert (Hden : 0 < c * sqrt c) by nra.
  assert (HP : 0 < 2 * aT / (c * sqrt c)) by (apply Rdiv_lt_0_compat; lra).
  destruct (nat_above (g0 / (2 * aT / (c * sqrt c)))) as (N & HN).
  assert (HB : g0 < INR N * (2 * aT / (c * sqrt c))).
  { apply Rmult_lt_reg_r with (/ (2 * aT / (c * sqrt c))); [now apply Rinv_0_lt_compat|].
    rewrite Rmult_assoc, Rinv_r by lra. rewrite Rmult_1_r. unfold Rdiv in HN at 1. lra. }
  assert (HI : incr [g0]) by (intros i j Hij Hj; cbn in Hj; lia).
  destruct (heur_loop_terminates M aT c HM Ha Hc N g0 [] (Rlt_le _ _ Hg0) (or_introl HB) HI) as (l & L1 & L2 & L3 & L4 & L5).
  exists N, l. split; [exact L1|]. split; [exact L2|]. split; [exact L3|]. split; [exact L4|].
  destruct l as [|x [|y l]]; cbn in *; try lia.
  unfold rnth in L3. cbn in L3. rewrite L3 in L4. lra.
Qed.

(* ---------- searchsorted ---------- *)
Lemma ssl_le g x : (searchsorted_left g x <= length g)%nat.
Proof. induction g as [|a g IH]; cbn; [lia|]. destruct (Rlt_dec a x); lia. Qed.
Lemma ssl_below g x : forall i, (i < searchsorted_left g x)%nat -> rnth g i < x.
Proof.
  induction g as [|a g IH]; intros i Hi; cbn in Hi; [lia|].
  destruct (Rlt_dec a x); [|lia]. destruct i as [|i]; [exact r|]. apply (IH i). lia.
Qed.
Lemma ssl_at g x : (searchsorted_left g x < length g)%nat -> x <= rnth g (searchsorted_left g x).
Proof.
  induction g as [|a g IH]; intros H; cbn in *; [lia|].
  destruct (Rlt_dec a x) as [Ha|Ha].
  - unfold rnth. cbn [nth]. apply IH. lia.
  - unfold rnth. cbn [nth]. lra.
Qed.
Lemma ssl_unique g x k : (k <= length g)%nat -> (forall i, (i < k)%nat -> rnth g i < x) ->
  ((k < length g)%nat -> x <= rnth g k) -> searchsorted_left g x = k.
Proof.
  intros Hk Hb Ha. pose proof (ssl_le g x) as HL. destruct (Nat.lt_trichotomy (searchsorted_left g x) k) as [H|[H|H]]; auto.
  - pose proof (ssl_at g x ltac:(lia)). pose proof (Hb _ H). lra.
  - pose proof (ssl_below g x k H). pose proof (Ha ltac:(lia)). lra.
Qed.
Lemma ssl_node g i : incr g -> (i < length g)%nat -> searchsorted_left g (rnth g i) = i.
Proof. intros Hg Hi. apply ssl_unique; [lia| |intros; lra]. intros j Hj. apply Hg; lia. Qed.
Lemma ssl_cell g i x : incr g -> (S i < length g)%nat -> rnth g i < x -> x <= rnth g (S i) -> searchsorted_left g x = S i.
Proof.
  intros Hg Hi H1 H2. apply ssl_unique; [lia| |auto]. intros j Hj.
  destruct (Nat.eq_dec j i) as [->|Hne]; [exact H1|]. apply Rlt_trans with (rnth g i); [apply Hg; lia|exact H1].
Qed.

(* ---------- linear interpolation ---------- *)
Lemma lin_node f g i : incr g -> (i < length g)%nat -> linear_interpolation f g (rnth g i) = rnth f i.
Proof.
  intros Hg Hi. unfold linear_interpolation. rewrite ssl_node by auto. cbn zeta.
  destruct (Nat.leb_spec (length g - 1) i).
  - now replace (length g - 1)%nat with i by lia.
  - destruct (Req_EM_T (rnth g i) (rnth g i)); [reflexivity|congruence].
Qed.

(* in cell (i, i+1) the code evaluates the line through nodes i+1 and i+2 *)
Lemma lin_cell f g i x : incr g -> (S (S i) < length g)%nat -> rnth g i < x < rnth g (S i) ->
  linear_interpolation f g x =
  (rnth f (S i) * (rnth g (S (S i)) - x) + rnth f (S (S i)) * (x - rnth g (S i))) / (rnth g (S (S i)) - rnth g (S i)).
Proof.
  intros Hg Hi Hx. unfold linear_interpolation. rewrite (ssl_cell g i x) by (auto; lia || lra). cbn zeta.
  destruct (Nat.leb_spec (length g - 1) (S i)); [lia|].
  destruct (Req_EM_T x (rnth g (S i))); [lra|]. now replace (S i + 1)%nat with (S (S i)) by lia.
Qed.
Lemma lin_last_cell f g i x : incr g -> (S (S i) = length g)%nat -> rnth g i < x <= rnth g (S i) ->
  linear_interpolation f g x = rnth f (S i).
Proof.
  intros Hg Hi Hx. unfold linear_interpolation. rewrite (ssl_cell g i x) by (auto; lia || lra). cbn zeta.
  destruct (Nat.leb_spec (length g - 1) (S i)); [|lia]. f_equal. lia.
Qed.
Lemma lin_affine f g a b x : incr g -> length f = length g ->
  (forall i, (i < length g)%nat -> rnth f i = a + b * rnth g i) ->
  (2 <= length g)%nat -> x <= rnth g (length g - 2) -> linear_interpolation f g x = a + b * x.
Proof.
  intros Hg Hl Hf Hn Hx. unfold linear_interpolation. set (k := searchsorted_left g x). cbn zeta.
  assert (Hk : (k <= length g - 2)%nat).
  { destruct (Nat.le_gt_cases k (length g - 2)); [assumption|].
    pose proof (ssl_below g x (length g - 2) H). lra. }
  destruct (Nat.leb_spec (length g - 1) k); [lia|].
  destruct (Req_EM_T x (rnth g k)) as [E|E].
  - rewrite Hf by lia. now rewrite E.
  - rewrite !Hf by lia. pose proof (Hg k (k + 1)%nat ltac:(lia) ltac:(lia)). field. lra.
Qed.

(* ---------- cubic interpolation ---------- *)
Lemma cubic_node f g i : incr g -> (i < length g)%nat -> cubic_interpolation f g (rnth g i) = rnth f i.
Proof.
  intros Hg Hi. unfold cubic_interpolation. rewrite ssl_node by auto. cbn zeta.
  destruct (Nat.leb_spec (length g - 1) i).
  - now replace (length g - 1)%nat with i by lia.
  - destruct (Req_EM_T (rnth g i) (rnth g i)); [reflexivity|congruence].
Qed.

Definition uniform (g : list R) (g0 h : R) : Prop := forall i, (i < length g)%nat -> rnth g i = g0 + INR i * h.
Lemma uniform_incr g g0 h : 0 < h -> uniform g g0 h -> incr g.
Proof.
  intros Hh Hu i j Hij Hj. rewrite !Hu by lia. apply Rplus_lt_compat_l. apply Rmult_lt_compat_r; [exact Hh|]. now apply lt_INR.
Qed.

Lemma cubic_affine f g g0 h a b x : 0 < h -> uniform g g0 h -> (2 <= length g)%nat ->
  (forall i, (i < length g)%nat -> rnth f i = a + b * rnth g i) ->
  x <= rnth g (length g - 2) -> cubic_interpolation f g x = a + b * x.
Proof.
  intros Hh Hu Hn Hf Hx. pose proof (uniform_incr _ _ _ Hh Hu) as Hg.
  unfold cubic_interpolation. set (k := searchsorted_left g x). cbn zeta.
  assert (Hk : (k <= length g - 2)%nat).
  { destruct (Nat.le_gt_cases k (length g - 2)); [assumption|].
    pose proof (ssl_below g x (length g - 2) H). lra. }
  destruct (Nat.leb_spec (length g - 1) k); [lia|].
  destruct (Req_EM_T x (rnth g k)) as [E|E]; [rewrite Hf by lia; now rewrite E|].
  destruct ((k =? 0)%nat || (k =? length g - 2)%nat) eqn:EK.
  - rewrite !Hf by lia. pose proof (Hg k (k + 1)%nat ltac:(lia) ltac:(lia)). field. lra.
  - apply orb_false_iff in EK. destruct EK as (K1 & K2). apply Nat.eqb_neq in K1, K2.
    rewrite !Hf by lia. rewrite !Hu by lia. rewrite !plus_INR, minus_INR by lia. simpl (INR 1). simpl (INR 2). field. lra.
Qed.

Lemma cubic_quadratic f g g0 h a b c x : 0 < h -> uniform g g0 h -> (4 <= length g)%nat ->
  (forall i, (i < length g)%nat -> rnth f i = a + b * rnth g i + c * rnth g i ^ 2) ->
  rnth g 0 < x <= rnth g (length g - 3) -> cubic_interpolation f g x = a + b * x + c * x ^ 2.
Proof.
  intros Hh Hu Hn Hf Hx. pose proof (uniform_incr _ _ _ Hh Hu) as Hg.
  unfold cubic_interpolation. set (k := searchsorted_left g x). cbn zeta.
  assert (Hk : (k <= length g - 3)%nat).
  { destruct (Nat.le_gt_cases k (length g - 3)); [assumption|].
    pose proof (ssl_below g x (length g - 3) H). lra. }
  assert (Hk0 : k <> 0%nat).
  { intros E. pose proof (ssl_at g x ltac:(fold k; lia)) as HA. fold k in HA. rewrite E in HA. lra. }
  destruct (Nat.leb_spec (length g - 1) k); [lia|].
  destruct (Req_EM_T x (rnth g k)) as [E|E]; [rewrite Hf by lia; now rewrite E|].
  replace ((k =? 0)%nat || (k =? length g - 2)%nat) with false.
  2:{ symmetry. apply orb_false_iff. split; apply Nat.eqb_neq; lia. }
  rewrite !Hf by lia. rewrite !Hu by lia. rewrite !plus_INR, minus_INR by lia. simpl (INR 1). simpl (INR 2). field. lra.
Qed.

(* not continuous at an interior node *)
Definition cub_grid : list R := [0; 1; 2; 3; 4; 5].
Definition cub_tab : list R := [0; 0; 1; 0; 0; 0].
Lemma cub_grid_incr : incr cub_grid.
Proof.
  intros i j Hij Hj. cbn in Hj. unfold rnth, cub_grid.
  destruct j as [|[|[|[|[|[|j]]]]]]; try lia; destruct i as [|[|[|[|[|i]]]]]; try lia; cbn; lra.
Qed.
Lemma cubic_jump t : 0 < t <= 1 / 10 -> cubic_interpolation cub_tab cub_grid (1 + t) < -1.
Proof.
  intros Ht. unfold cubic_interpolation.
  rewrite (ssl_cell cub_grid 1 (1 + t)); [|exact cub_grid_incr|cbn; lia|unfold rnth; cbn; lra|unfold rnth; cbn; lra].
  cbn zeta. change (length cub_grid) with 6%nat. cbn [Nat.leb Nat.sub Nat.eqb orb].
  unfold rnth, cub_grid, cub_tab. cbn [nth Nat.add Nat.sub].
  destruct (Req_EM_T (1 + t) 2); [lra|]. nra.
Qed.
Lemma cubic_discontinuous : forall delta, 0 < delta -> exists x, Rabs (x - 1) < delta /\
  1 <= Rabs (cubic_interpolation cub_tab cub_grid x - cubic_interpolation cub_tab cub_grid 1).
Proof.
  intros d Hd. set (t := Rmin (d / 2) (1 / 10)).
  assert (Ht : 0 < t <= 1 / 10) by (unfold t, Rmin; destruct (Rle_dec _ _); lra).
  assert (Htd : t <= d / 2) by (unfold t, Rmin; destruct (Rle_dec _ _); lra).
  exists (1 + t). split.
  - replace (1 + t - 1) with t by ring. rewrite Rabs_right; lra.
  - pose proof (cubic_jump t Ht) as HJ.
    assert (H1 : cubic_interpolation cub_tab cub_grid 1 = 0).
    { change 1 with (rnth cub_grid 1) at 1. rewrite cubic_node; [reflexivity|exact cub_grid_incr|cbn; lia]. }
    rewrite H1, Rminus_0_r. rewrite Rabs_left; lra.
Qed.

(* ---------- grid search ---------- *)
Definition find_spec (grid : list R) (x : R) (r : Z * Z) : Prop :=
  (exists i, (i < length grid)%nat /\ rnth grid i = x /\ r = (Z.of_nat i, Z.of_nat i)) \/
  (exists i, (S i < length grid)%nat /\ rnth grid i < x < rnth grid (S i) /\ r = (Z.of_nat i, Z.of_nat i + 1)%Z) \/
  (rnth grid (length grid - 1) < x /\ r = (Z.of_nat (length grid) - 1, -1)%Z) \/
  (x < rnth grid 0 /\ r = (-1, 0)%Z).

Lemma incr_le g i j : incr g -> (i <= j)%nat -> (j < length g)%nat -> rnth g i <= rnth g j.
Proof. intros Hg Hij Hj. destruct (Nat.eq_dec i j) as [->|]; [lra|]. left. apply Hg; lia. Qed.
Lemma incr_inj g i j : incr g -> (i < length g)%nat -> (j < length g)%nat -> rnth g i <= rnth g j -> (i <= j)%nat.
Proof. intros Hg Hi Hj H. destruct (Nat.le_gt_cases i j); auto. pose proof (Hg j i ltac:(lia) ltac:(lia)). lra. Qed.

Lemma find_spec_unique grid x r r' : incr grid -> (0 < length grid)%nat -> find_spec grid x r -> find_spec grid x r' -> r = r'.
Proof.
  intros Hg Hn [(i & I1 & I2 & I3)|[(i & I1 & I2 & I3)|[(I1 & I2)|(I1 & I2)]]]
               [(j & J1 & J2 & J3)|[(j & J1 & J2 & J3)|[(J1 & J2)|(J1 & J2)]]]; subst; try reflexivity.
  - assert (i = j); [|congruence]. pose proof (incr_inj grid i j Hg I1 J1 ltac:(lra)). pose proof (incr_inj grid j i Hg J1 I1 ltac:(lra)). lia.
  - pose proof (incr_inj grid j i Hg ltac:(lia) I1 ltac:(lra)). pose proof (incr_inj grid i (S j) Hg I1 J1 ltac:(lra)).
    assert (i = j \/ i = S j) as [->| ->] by lia; lra.
  - pose proof (incr_le grid i (length grid - 1) Hg ltac:(lia) ltac:(lia)). lra.
  - pose proof (incr_le grid 0 i Hg ltac:(lia) I1). lra.
  - pose proof (incr_inj grid i j Hg ltac:(lia) J1 ltac:(lra)). pose proof (incr_inj grid j (S i) Hg J1 I1 ltac:(lra)).
    assert (j = i \/ j = S i) as [->| ->] by lia; lra.
  - assert (i = j); [|congruence].
    pose proof (incr_inj grid i (S j) Hg ltac:(lia) J1 ltac:(lra)). pose proof (incr_inj grid j (S i) Hg ltac:(lia) I1 ltac:(lra)).
    destruct (Nat.eq_dec i (S j)) as [->|]; [lra|]. destruct (Nat.eq_dec j (S i)) as [->|]; [lra|]. lia.
  - pose proof (incr_le grid (S i) (length grid - 1) Hg ltac:(lia) ltac:(lia)). lra.
  - pose proof (incr_le grid 0 i Hg ltac:(lia) ltac:(lia)). lra.
  - pose proof (incr_le grid j (length grid - 1) Hg ltac:(lia) ltac:(lia)). lra.
  - pose proof (incr_le grid (S j) (length grid - 1) Hg ltac:(lia) ltac:(lia)). lra.
  - pose proof (incr_le grid 0 (length grid - 1) Hg ltac:(lia) ltac:(lia)). lra.
  - pose proof (incr_le grid 0 j Hg ltac:(lia) ltac:(lia)). lra.
  - pose proof (incr_le grid 0 j Hg ltac:(lia) ltac:(lia)). lra.
  - pose proof (incr_le grid 0 (length grid - 1) Hg ltac:(lia) ltac:(lia)). lra.
Qed.

Lemma cpp_search_ok grid x : incr grid -> forall fuel h t, (t - h <= fuel)%nat -> (h <= t)%nat -> (t < length grid)%nat ->
  rnth grid h <= x <= rnth grid t ->
  exists h' t', cpp_search fuel grid x h t = Some (h', t') /\ (h' <= t' <= S h')%nat /\ (t' < length grid)%nat /\
    rnth grid h' <= x <= rnth grid t'.
Proof.
  intros Hg. induction fuel as [|fuel IH]; intros h t Hf Hht Ht Hx; cbn [cpp_search].
  - destruct (Nat.ltb_spec 1 (t - h)); [lia|]. exists h, t. repeat split; try lia; lra.
  - destruct (Nat.ltb_spec 1 (t - h)) as [H1|H1].
    + pose proof (Nat.div_mod (t + h) 2 ltac:(lia)) as DM. pose proof (Nat.mod_upper_bound (t + h) 2 ltac:(lia)) as MB.
      set (m := Nat.div (t + h) 2) in *. cbn zeta.
      destruct (Rlt_dec x (rnth grid m)); apply IH; try lia; lra.
    + exists h, t. repeat split; try lia; lra.
Qed.

Lemma cpp_find_ok grid x fuel : incr grid -> (0 < length grid)%nat -> (length grid <= fuel)%nat ->
  exists r, cpp_binary_find fuel grid x = Some r /\ find_spec grid x r.
Proof.
  intros Hg Hn Hf. unfold cpp_binary_find. destruct grid as [|g0 gr] eqn:EG; [cbn in Hn; lia|]. rewrite <- EG in *. clear EG.
  cbn zeta. destruct (Rlt_dec (rnth grid (length grid - 1)) x) as [H1|H1].
  { eexists. split; [reflexivity|]. right; right; left. split; [exact H1|]. f_equal; lia. }
  destruct (Rlt_dec x (rnth grid 0)) as [H2|H2].
  { eexists. split; [reflexivity|]. right; right; right. split; [exact H2|reflexivity]. }
  destruct (cpp_search_ok grid x Hg fuel 0 (length grid - 1) ltac:(lia) ltac:(lia) ltac:(lia) ltac:(lra))
    as (h & t & HS & Hht & Ht & Hx).
  rewrite HS. destruct (Req_EM_T (rnth grid t) x) as [E|E].
  { eexists. split; [reflexivity|]. left. exists t. auto. }
  destruct (Req_EM_T (rnth grid h) x) as [E2|E2].
  { eexists. split; [reflexivity|]. left. exists h. repeat split; auto. lia. }
  eexists. split; [reflexivity|]. right; left.
  assert (h <> t) by (intros ->; lra). assert (t = S h) as -> by lia.
  exists h. split; [lia|]. split; [lra|]. f_equal. lia.
Qed.

Lemma position_some grid x i : position grid x = Some i -> (i < length grid)%nat /\ rnth grid i = x.
Proof.
  revert i. induction grid as [|g r IH]; intros i H; cbn in H; [discriminate|].
  destruct (Req_EM_T g x) as [E|E]; [injection H as <-; cbn; split; [lia|exact E]|].
  destruct (position r x) as [k|]; [|discriminate]. injection H as <-. destruct (IH k eq_refl) as (A & B). cbn. split; [lia|exact B].
Qed.
Lemma position_none grid x : position grid x = None -> forall i, (i < length grid)%nat -> rnth grid i <> x.
Proof.
  induction grid as [|g r IH]; intros H i Hi; cbn in *; [lia|].
  destruct (Req_EM_T g x) as [E|E]; [discriminate|]. destruct (position r x) eqn:EP; [discriminate|].
  destruct i as [|i]; [exact E|]. apply (IH eq_refl i). lia.
Qed.
Lemma ssr_below g x : forall i, (i < searchsorted_right g x)%nat -> rnth g i <= x.
Proof.
  induction g as [|a g IH]; intros i Hi; cbn in Hi; [lia|].
  destruct (Rle_dec a x); [|lia]. destruct i as [|i]; [exact r|]. apply (IH i). lia.
Qed.
Lemma ssr_le g x : (searchsorted_right g x <= length g)%nat.
Proof. induction g as [|a g IH]; cbn; [lia|]. destruct (Rle_dec a x); lia. Qed.
Lemma ssr_at g x : (searchsorted_right g x < length g)%nat -> x < rnth g (searchsorted_right g x).
Proof.
  induction g as [|a g IH]; intros H; cbn in *; [lia|].
  destruct (Rle_dec a x) as [Ha|Ha]; unfold rnth; cbn [nth]; [apply IH; lia|lra].
Qed.
Lemma last_rnth (g : list R) : last g 0 = rnth g (length g - 1).
Proof.
  unfold rnth. induction g as [|a [|b g] IH]; [reflexivity|reflexivity|].
  change (last (a :: b :: g) 0) with (last (b :: g) 0). rewrite IH. cbn. now rewrite Nat.sub_0_r.
Qed.

Lemma py_find_ok grid x : incr grid -> (0 < length grid)%nat ->
  exists r, py_binary_find grid x = Ok r /\ find_spec grid x r.
Proof.
  intros Hg Hn. unfold py_binary_find. destruct grid as [|g0 gr] eqn:EG; [cbn in Hn; lia|]. rewrite <- EG in *.
  cbn zeta. assert (HG0 : g0 = rnth grid 0) by (subst; reflexivity). rewrite last_rnth, HG0. clear EG HG0.
  destruct (Rlt_dec (rnth grid (length grid - 1)) x) as [H1|H1].
  { eexists. split; [reflexivity|]. right; right; left. split; [exact H1|]. f_equal; lia. }
  destruct (Rlt_dec x (rnth grid 0)) as [H2|H2].
  { eexists. split; [reflexivity|]. right; right; right. split; [exact H2|reflexivity]. }
  destruct (position grid x) as [i|] eqn:EP.
  { destruct (position_some _ _ _ EP). eexists. split; [reflexivity|]. left. exists i. auto. }
  pose proof (position_none _ _ EP) as HN.
  set (k := searchsorted_right grid x).
  eexists. split; [reflexivity|]. right; left.
  assert (K1 : (k < length grid)%nat).
  { pose proof (ssr_le grid x) as HL. fold k in HL. destruct (Nat.eq_dec k (length grid)) as [E|]; [|lia].
    pose proof (ssr_below grid x (length grid - 1) ltac:(fold k; lia)). pose proof (HN (length grid - 1)%nat ltac:(lia)). lra. }
  assert (K0 : k <> 0%nat).
  { intros E. pose proof (ssr_at grid x ltac:(fold k; lia)) as HA. fold k in HA. rewrite E in HA. lra. }
  exists (k - 1)%nat. replace (S (k - 1)) with k by lia.
  split; [exact K1|]. split.
  - pose proof (ssr_below grid x (k - 1) ltac:(fold k; lia)). pose proof (HN (k - 1)%nat ltac:(lia)).
    pose proof (ssr_at grid x K1) as HA. fold k in HA. lra.
  - f_equal; lia.
Qed.

(* ---------- distribution interpolation ---------- *)
Lemma energy_incr m p q : 0 <= p -> p < q -> energy p m < energy q m.
Proof. intros Hp Hq. unfold energy. apply sqrt_lt_1; nra. Qed.

(* the four situations *)
Lemma interp_node grid dist m eta T i : incr grid -> (i < length grid)%nat ->
  distribution_interpolation grid dist (rnth grid i) m eta T false = Ok (rnth dist i).
Proof.
  intros Hg Hi. unfold distribution_interpolation.
  destruct (cpp_find_ok grid (rnth grid i) (length grid) Hg ltac:(lia) ltac:(lia)) as (r & -> & Hs).
  rewrite (find_spec_unique grid (rnth grid i) r (Z.of_nat i, Z.of_nat i) Hg ltac:(lia) Hs) by (left; exists i; auto).
  destruct (Z.eqb_spec (Z.of_nat i) (-1)); [lia|]. rewrite Z.eqb_refl, Nat2Z.id. reflexivity.
Qed.
Lemma interp_between grid dist p m eta T i : incr grid -> (S i < length grid)%nat -> rnth grid i < p < rnth grid (S i) ->
  distribution_interpolation grid dist p m eta T false =
  Ok (interp_cell (energy p m) (energy (rnth grid i) m) (energy (rnth grid (S i)) m) (rnth dist i) (rnth dist (S i)) eta).
Proof.
  intros Hg Hi Hp. unfold distribution_interpolation.
  destruct (cpp_find_ok grid p (length grid) Hg ltac:(lia) ltac:(lia)) as (r & -> & Hs).
  rewrite (find_spec_unique grid p r (Z.of_nat i, Z.of_nat i + 1)%Z Hg ltac:(lia) Hs) by (right; left; exists i; auto).
  destruct (Z.eqb_spec (Z.of_nat i) (-1)); [lia|]. destruct (Z.eqb_spec (Z.of_nat i + 1) (-1)); [lia|].
  destruct (Z.eqb_spec (Z.of_nat i) (Z.of_nat i + 1)); [lia|].
  rewrite Nat2Z.id. replace (Z.to_nat (Z.of_nat i + 1)) with (S i) by lia. reflexivity.
Qed.
Lemma interp_above grid dist p m eta T : incr grid -> (0 < length grid)%nat -> rnth grid (length grid - 1) < p ->
  distribution_interpolation grid dist p m eta T false =
  Ok (rnth dist (length grid - 1) * exp ((energy (rnth grid (length grid - 1)) m - energy p m) / T)).
Proof.
  intros Hg Hi Hp. unfold distribution_interpolation.
  destruct (cpp_find_ok grid p (length grid) Hg ltac:(lia) ltac:(lia)) as (r & -> & Hs).
  rewrite (find_spec_unique grid p r (Z.of_nat (length grid) - 1, -1)%Z Hg ltac:(lia) Hs) by (right; right; left; auto).
  destruct (Z.eqb_spec (Z.of_nat (length grid) - 1) (-1)); [lia|]. reflexivity.
Qed.
Lemma interp_below grid dist p m eta T : incr grid -> (0 < length grid)%nat -> p < rnth grid 0 ->
  distribution_interpolation grid dist p m eta T false = Raise RuntimeError.
Proof.
  intros Hg Hi Hp. unfold distribution_interpolation.
  destruct (cpp_find_ok grid p (length grid) Hg ltac:(lia) ltac:(lia)) as (r & -> & Hs).
  rewrite (find_spec_unique grid p r (-1, 0)%Z Hg ltac:(lia) Hs) by (right; right; right; auto). reflexivity.
Qed.

(* equilibrium shapes 1/(exp(alpha E + beta) + eta) are reproduced *)
Lemma cell_equilibrium E_p E_lo E_hi alpha beta eta :
  E_lo < E_hi -> exp (alpha * E_lo + beta) + eta <> 0 -> exp (alpha * E_hi + beta) + eta <> 0 ->
  interp_cell E_p E_lo E_hi (1 / (exp (alpha * E_lo + beta) + eta)) (1 / (exp (alpha * E_hi + beta) + eta)) eta
  = 1 / (exp (alpha * E_p + beta) + eta).
Proof.
  intros HE Hl Hh. unfold interp_cell.
  assert (Hne : forall z, z <> 0 -> 1 / z <> 0).
  { intros z Hz. unfold Rdiv. rewrite Rmult_1_l. now apply Rinv_neq_0_compat. }
  destruct (Req_EM_T (1 / (exp (alpha * E_hi + beta) + eta)) 0) as [X|_]; [exfalso; exact (Hne _ Hh X)|].
  destruct (Req_EM_T (1 / (exp (alpha * E_lo + beta) + eta)) 0) as [X|_]; [exfalso; exact (Hne _ Hl X)|].
  cbn zeta.
  replace (1 / (1 / (exp (alpha * E_hi + beta) + eta)) - eta) with (exp (alpha * E_hi + beta)) by (field; exact Hh).
  replace (1 / (1 / (exp (alpha * E_lo + beta) + eta)) - eta) with (exp (alpha * E_lo + beta)) by (field; exact Hl).
  destruct (Rlt_dec 0 (exp (alpha * E_hi + beta))) as [_|X]; [|pose proof (exp_pos (alpha * E_hi + beta)); contradiction].
  destruct (Rlt_dec 0 (exp (alpha * E_lo + beta))) as [_|X]; [|pose proof (exp_pos (alpha * E_lo + beta)); contradiction].
  rewrite !ln_exp. do 3 f_equal. field. lra.
Qed.

Lemma interp_equilibrium grid dist p m eta T alpha beta :
  incr grid -> 0 <= rnth grid 0 -> rnth grid 0 <= p <= rnth grid (length grid - 1) ->
  (0 < length grid)%nat ->
  (forall i, (i < length grid)%nat -> rnth dist i = 1 / (exp (alpha * energy (rnth grid i) m + beta) + eta) /\
                                      exp (alpha * energy (rnth grid i) m + beta) + eta <> 0) ->
  distribution_interpolation grid dist p m eta T false = Ok (1 / (exp (alpha * energy p m + beta) + eta)).
Proof.
  intros Hg H0 Hp Hn Hd.
  destruct (cpp_find_ok grid p (length grid) Hg Hn ltac:(lia)) as (r & _ & Hs).
  destruct Hs as [(i & I1 & I2 & _)|[(i & I1 & I2 & _)|[(I1 & _)|(I1 & _)]]].
  - rewrite <- I2. rewrite interp_node by auto. f_equal. apply Hd. exact I1.
  - rewrite (interp_between grid dist p m eta T i) by auto. f_equal.
    destruct (Hd i ltac:(lia)) as (-> & D2). destruct (Hd (S i) I1) as (-> & D4).
    apply cell_equilibrium; auto. apply energy_incr; [|lra].
    pose proof (incr_le grid 0 i Hg ltac:(lia) ltac:(lia)). lra.
  - lra.
  - lra.
Qed.

(* between neighbours *)
Definition occupation_ok (f eta : R) : Prop := 0 < f /\ 0 < 1 / f - eta.

Lemma cell_transform_inv f eta : occupation_ok f eta -> 1 / (exp (ln (1 / f - eta)) + eta) = f.
Proof.
  intros (Hf & Hg). rewrite exp_ln by exact Hg. field. split; [lra|]. intros X.
  assert (f * (1 / f) = 1) by (field; lra). nra.
Qed.

Lemma cell_between E_p E_lo E_hi f_lo f_hi eta :
  E_lo < E_p < E_hi -> occupation_ok f_lo eta -> occupation_ok f_hi eta ->
  Rmin f_lo f_hi <= interp_cell E_p E_lo E_hi f_lo f_hi eta <= Rmax f_lo f_hi.
Proof.
  intros HE HL HH. pose proof (cell_transform_inv _ _ HL) as TL. pose proof (cell_transform_inv _ _ HH) as TH.
  destruct HL as (L1 & L2). destruct HH as (H1 & H2). unfold interp_cell.
  destruct (Req_EM_T f_hi 0); [lra|]. destruct (Req_EM_T f_lo 0); [lra|]. cbn zeta.
  destruct (Rlt_dec 0 (1 / f_hi - eta)); [|contradiction]. destruct (Rlt_dec 0 (1 / f_lo - eta)); [|contradiction].
  set (gl := ln (1 / f_lo - eta)) in *. set (gh := ln (1 / f_hi - eta)) in *.
  set (w := (E_p - E_lo) / (E_hi - E_lo)).
  assert (Hw : 0 < w < 1).
  { unfold w. split; [apply Rdiv_lt_0_compat; lra|]. apply Rmult_lt_reg_r with (E_hi - E_lo); [lra|].
    unfold Rdiv. rewrite Rmult_assoc, Rinv_l by lra. lra. }
  replace (((E_p - E_lo) * gh + (E_hi - E_p) * gl) / (E_hi - E_lo)) with (w * gh + (1 - w) * gl) by (unfold w; field; lra).
  assert (PL : 0 < exp gl + eta).
  { destruct (Rlt_dec 0 (exp gl + eta)); auto. exfalso.
    destruct (Req_dec (exp gl + eta) 0) as [E|E].
    - unfold gl in E. rewrite exp_ln in E by exact L2. assert (0 < 1 / f_lo) by (apply Rdiv_lt_0_compat; lra). lra.
    - assert (1 / (exp gl + eta) < 0). { unfold Rdiv. rewrite Rmult_1_l. apply Rinv_lt_0_compat. lra. } lra. }
  assert (PH : 0 < exp gh + eta).
  { unfold gh. rewrite exp_ln by exact H2. assert (0 < 1 / f_hi) by (apply Rdiv_lt_0_compat; lra). lra. }
  (* F is decreasing on exp g + eta > 0 *)
  assert (Fdec : forall a b, 0 < exp a + eta -> a <= b -> 1 / (exp b + eta) <= 1 / (exp a + eta)).
  { intros a b Ha Hab. assert (exp a <= exp b) by (destruct Hab as [Hab| ->]; [left; now apply exp_increasing|lra]).
    unfold Rdiv. rewrite !Rmult_1_l. apply Rinv_le_contravar; lra. }
  destruct (Rle_dec gl gh) as [O|O].
  - assert (B1 : gl <= w * gh + (1 - w) * gl <= gh) by nra.
    pose proof (Fdec _ _ PL (proj1 B1)) as F1. 
    assert (PM : 0 < exp (w * gh + (1 - w) * gl) + eta).
    { assert (exp gl <= exp (w * gh + (1 - w) * gl)) by (destruct (proj1 B1) as [X|X]; [left; now apply exp_increasing|rewrite <- X; lra]). lra. }
    pose proof (Fdec _ _ PM (proj2 B1)) as F2. rewrite TL in F1. rewrite TH in F2.
    unfold Rmin, Rmax. destruct (Rle_dec f_lo f_hi); lra.
  - assert (B1 : gh <= w * gh + (1 - w) * gl <= gl) by nra.
    pose proof (Fdec _ _ PH (proj1 B1)) as F1.
    assert (PM : 0 < exp (w * gh + (1 - w) * gl) + eta).
    { assert (exp gh <= exp (w * gh + (1 - w) * gl)) by (destruct (proj1 B1) as [X|X]; [left; now apply exp_increasing|rewrite <- X; lra]). lra. }
    pose proof (Fdec _ _ PM (proj2 B1)) as F2. rewrite TH in F1. rewrite TL in F2.
    unfold Rmin, Rmax. destruct (Rle_dec f_lo f_hi); lra.
Qed.

Lemma occupation_fermion f : 0 < f < 1 -> occupation_ok f 1.
Proof.
  intros H. split; [lra|]. assert (1 < 1 / f); [|lra]. unfold Rdiv. rewrite Rmult_1_l.
  rewrite <- Rinv_1. apply Rinv_lt_contravar; lra.
Qed.
Lemma occupation_boson f : 0 < f -> occupation_ok f (-1).
Proof. intros H. split; [lra|]. assert (0 < 1 / f) by (apply Rdiv_lt_0_compat; lra). lra. Qed.

(* above the grid *)
Lemma above_monotone m T fmax pm : 0 < T -> 0 <= fmax -> 0 <= pm ->
  forall p q, pm <= p -> p <= q ->
  0 <= fmax * exp ((energy pm m - energy q m) / T) <= fmax * exp ((energy pm m - energy p m) / T) /\
  fmax * exp ((energy pm m - energy p m) / T) <= fmax.
Proof.
  intros HT Hf Hpm p q Hp Hq.
  assert (EL : forall u v, 0 <= u -> u <= v -> energy u m <= energy v m).
  { intros u v Hu Huv. destruct (Req_dec u v) as [->|]; [lra|]. left. apply energy_incr; lra. }
  assert (XL : forall a b, a <= b -> exp (a / T) <= exp (b / T)).
  { intros a b Hab. destruct (Req_dec a b) as [->|]; [lra|]. left. apply exp_increasing.
    unfold Rdiv. apply Rmult_lt_compat_r; [now apply Rinv_0_lt_compat|lra]. }
  pose proof (exp_pos ((energy pm m - energy q m) / T)).
  pose proof (XL (energy pm m - energy q m) (energy pm m - energy p m) ltac:(pose proof (EL p q ltac:(lra) Hq); lra)).
  pose proof (XL (energy pm m - energy p m) 0 ltac:(pose proof (EL pm p Hpm Hp); lra)) as X0.
  replace (0 / T) with 0 in X0 by (unfold Rdiv; ring). rewrite exp_0 in X0. repeat split; nra.
Qed.

Lemma above_continuous m T fmax pm : 0 < T ->
  forall eps, 0 < eps -> exists delta, 0 < delta /\ forall p, pm < p < pm + delta ->
  Rabs (fmax * exp ((energy pm m - energy p m) / T) - fmax) < eps.
Proof.
  intros HT eps Heps.
  assert (HC : continuity_pt (fun p => fmax * exp ((energy pm m - energy p m) / T)) pm).
  { apply (continuity_pt_mult (fun _ => fmax) (fun p => exp ((energy pm m - energy p m) / T))).
    - apply continuity_pt_const. intros a b. reflexivity.
    - apply (continuity_pt_comp (fun p => (energy pm m - energy p m) / T) exp).
      + apply (continuity_pt_mult (fun p => energy pm m - energy p m) (fun _ => / T)).
        * apply (continuity_pt_minus (fun _ => energy pm m) (fun p => energy p m)).
          -- apply continuity_pt_const. intros a b. reflexivity.
          -- unfold energy. apply (continuity_pt_comp (fun p => p * p + m * m) sqrt).
             ++ apply (continuity_pt_plus (fun p => p * p) (fun _ => m * m)).
                ** apply (continuity_pt_mult (fun p => p) (fun p => p)); apply derivable_continuous_pt, derivable_pt_id.
                ** apply continuity_pt_const. intros a b. reflexivity.
             ++ apply continuity_pt_sqrt. nra.
        * apply continuity_pt_const. intros a b. reflexivity.
      + apply derivable_continuous_pt, derivable_pt_exp. }
  destruct (HC eps Heps) as (d & Hd & HD). exists d. split; [exact Hd|]. intros p Hp.
  specialize (HD p). unfold dist, R_met, R_dist in HD. simpl in HD. unfold R_dist in HD.
  replace (fmax * exp ((energy pm m - energy pm m) / T)) with fmax in HD.
  - apply HD. split.
    + unfold D_x, no_cond. split; [exact I|lra].
    + rewrite Rabs_right; lra.
  - replace ((energy pm m - energy pm m) / T) with 0 by (unfold Rdiv; ring). rewrite exp_0. ring.
Qed.

Lemma cell_degenerate E_p E_lo E_hi : interp_cell E_p E_lo E_hi 1 1 1 = 0.
Proof.
  unfold interp_cell. destruct (Req_EM_T 1 0); [lra|]. cbn zeta. destruct (Rlt_dec 0 (1 / 1 - 1)); [lra|reflexivity].
Qed.

(* Python twin *)
Lemma py_interp_agrees grid dist p m eta T ie : incr grid -> (0 < length grid)%nat -> length dist = length grid ->
  py_interp grid dist (rnth grid (length grid - 1)) p m eta T ie =
  match distribution_interpolation grid dist p m eta T ie with
  | Raise RuntimeError => Raise ValueError
  | r => r
  end.
Proof.
  intros Hg Hn Hl. unfold py_interp, distribution_interpolation. destruct ie; [reflexivity|].
  destruct (cpp_find_ok grid p (length grid) Hg Hn ltac:(lia)) as ([lo hi] & -> & Hs).
  destruct (py_find_ok grid p Hg Hn) as ([lo' hi'] & -> & Hs').
  pose proof (find_spec_unique grid p _ _ Hg Hn Hs Hs') as E. injection E as <- <-.
  destruct (Z.eqb lo (-1)); [reflexivity|]. destruct (Z.eqb hi (-1)).
  - now rewrite last_rnth, Hl.
  - destruct (Z.eqb lo hi); reflexivity.
Qed.
