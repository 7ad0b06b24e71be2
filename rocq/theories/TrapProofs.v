(* Lemmas for TrapProps *)
From Coq Require Import Reals Lra Psatz List PeanoNat Lia FinFun.
From Coquelicot Require Import Coquelicot.
From Verif Require Import TrapModel.
Import ListNotations.
Open Scope R_scope.

(* ---- the cache ---- *)
Definition valid (f : R -> R) (c : cache) : Prop := List.Forall (fun kv => snd kv = f (fst kv)) c.
Definition keys (c : cache) : list R := map fst c.
Lemma find_valid f c x v : valid f c -> find c x = Some v -> v = f x.
Proof.
  intros H. induction H as [|[k w] c E _ IH]; [discriminate|]. cbn in *. destruct (Req_EM_T x k) as [->|_]; [|exact IH].
  intros Q. injection Q as <-. exact E.
Qed.
Lemma find_none c x : find c x = None <-> ~ In x (keys c).
Proof.
  induction c as [|[k w] c IH]; cbn; [tauto|]. destruct (Req_EM_T x k) as [->|N].
  - split; [discriminate|]. intros H. exfalso. apply H. now left.
  - rewrite IH. split; [intros H [->|H']; [now destruct N|contradiction]|tauto].
Qed.
Lemma cached_spec f c x : valid f c -> fst (cached f c x) = f x /\ valid f (snd (cached f c x)) /\
  (NoDup (keys c) -> NoDup (keys (snd (cached f c x)))) /\ forall k, In k (keys (snd (cached f c x))) <-> In k (keys c) \/ k = x.
Proof.
  intros H. unfold cached. destruct (find c x) as [v|] eqn:E; cbn [fst snd].
  - split; [now apply find_valid with c|]. split; [exact H|]. split; [tauto|]. intros k. split; [tauto|]. intros [K|K]; [exact K|].
    rewrite K. destruct (in_dec Req_EM_T x (keys c)) as [I|N]; [exact I|]. apply find_none in N. congruence.
  - apply find_none in E. split; [reflexivity|]. split; [constructor; [reflexivity|exact H]|]. split.
    + intros D. cbn. now constructor.
    + intros k. cbn. split; intros [K|K]; auto.
Qed.
Lemma fold_cached f g : forall l s c, valid f c ->
  let r := fold_left (fun '(s, c) i => let '(v, c) := cached f c (g i) in (s + v, c)) l (s, c) in
  fst r = fold_left (fun (s : R) (i : nat) => s + f (g i)) l s /\ valid f (snd r) /\
  (NoDup (keys c) -> NoDup (keys (snd r))) /\ forall k, In k (keys (snd r)) <-> In k (keys c) \/ exists i, In i l /\ k = g i.
Proof.
  induction l as [|i l IH]; intros s c H; cbn [fold_left].
  - cbn. split; [reflexivity|]. split; [exact H|]. split; [tauto|]. intros k. split; [tauto|]. intros [K|[j [[] _]]]. exact K.
  - destruct (cached_spec f c (g i) H) as (E & V & N & K). destruct (cached f c (g i)) as [v c']. cbn [fst snd] in *. subst v.
    destruct (IH (s + f (g i)) c' V) as (A & B & C & D). split; [exact A|]. split; [exact B|]. split; [auto|].
    intros k. rewrite D, K. split.
    + intros [[Q|Q]|[j [Q1 Q2]]]; [tauto|right; exists i; cbn; auto|right; exists j; cbn; auto].
    + intros [Q|[j [[->|Q1] Q2]]]; [tauto|tauto|right; exists j; auto].
Qed.

Definition grid (a b : R) (n : nat) : list R := map (fun i => a + (b - a) / INR (n - 1) * INR i) (seq 0 n).
Lemma INR_pos n : (2 <= n)%nat -> 0 < INR (n - 1).
Proof. intros H. apply lt_0_INR. lia. Qed.
Lemma trapezium_spec f a b n c : (2 <= n)%nat -> valid f c -> let r := trapezium f a b n c in
  fst r = trapezium0 f a b n /\ valid f (snd r) /\ (NoDup (keys c) -> NoDup (keys (snd r))) /\
  forall k, In k (keys (snd r)) <-> In k (keys c) \/ In k (grid a b n).
Proof.
  intros Hn H. unfold trapezium, trapezium0. cbv zeta. pose proof (INR_pos n Hn) as HP.
  destruct (cached_spec f c a H) as (E1 & V1 & N1 & K1). destruct (cached f c a) as [fa c1]. cbn [fst snd] in *. subst fa.
  destruct (cached_spec f c1 b V1) as (E2 & V2 & N2 & K2). destruct (cached f c1 b) as [fb c2]. cbn [fst snd] in *. subst fb.
  set (h := (b - a) / INR (n - 1)).
  destruct (fold_cached f (fun i => a + h * INR i) (seq 1 (n - 2)) ((f a + f b) / 2) c2 V2) as (E3 & V3 & N3 & K3).
  cbv beta in *. destruct (fold_left _ (seq 1 (n - 2)) ((f a + f b) / 2, c2)) as [s c3]. cbn [fst snd] in *. subst s.
  split; [reflexivity|]. split; [exact V3|]. split; [auto|]. intros k. rewrite K3, K2, K1.
  assert (HB : a + h * INR (n - 1) = b) by (unfold h; field; lra).
  assert (HA : a + h * INR 0 = a) by (cbn; ring).
  assert (G : In k (grid a b n) <-> exists i, (i < n)%nat /\ k = a + h * INR i).
  { unfold grid. fold h. rewrite in_map_iff. split.
    - intros (i & E & I). apply in_seq in I. exists i. split; [lia|]. now symmetry.
    - intros (i & I & E). exists i. split; [now symmetry|]. apply in_seq. lia. }
  rewrite G. split.
  - intros [[[Q| ->]| ->]|(i & Q1 & Q2)].
    + now left.
    + right. exists 0%nat. split; [lia|]. now symmetry.
    + right. exists (n - 1)%nat. split; [lia|]. now symmetry.
    + apply in_seq in Q1. right. exists i. split; [lia|exact Q2].
  - intros [Q|(i & I & ->)]; [tauto|]. destruct (Nat.eq_dec i 0) as [->|I0]; [left; left; now right|].
    destruct (Nat.eq_dec i (n - 1)) as [->|I1]; [left; now right|]. right. exists i. split; [apply in_seq; lia|reflexivity].
Qed.

(* ---- sums over panels ---- *)
Fixpoint rsum (g : nat -> R) (n : nat) : R := match n with O => 0 | S n => rsum g n + g n end.
Lemma fold_rsum (g : nat -> R) : forall k s0 s, fold_left (fun s i => s + g i) (seq s k) s0 = s0 + rsum (fun i => g (s + i)%nat) k.
Proof.
  induction k as [|k IH]; intros s0 s; [cbn; ring|].
  rewrite seq_S, fold_left_app. cbn [fold_left rsum]. rewrite IH. ring.
Qed.
Lemma rsum_ext g g' n : (forall i, (i < n)%nat -> g i = g' i) -> rsum g n = rsum g' n.
Proof. induction n as [|n IH]; intros H; cbn; [reflexivity|]. rewrite IH by (intros; apply H; lia). now rewrite H by lia. Qed.
Lemma rsum_scal c g n : c * rsum g n = rsum (fun i => c * g i) n.
Proof. induction n as [|n IH]; cbn; [ring|]. rewrite <- IH. ring. Qed.
Lemma rsum_le g g' n : (forall i, (i < n)%nat -> g i <= g' i) -> rsum g n <= rsum g' n.
Proof. induction n as [|n IH]; intros H; cbn; [lra|]. pose proof (H n ltac:(lia)). specialize (IH (fun i Hi => H i ltac:(lia))). lra. Qed.
Lemma rsum_plus g g' n : rsum (fun i => g i + g' i) n = rsum g n + rsum g' n.
Proof. induction n as [|n IH]; cbn; [ring|]. rewrite IH. ring. Qed.

Definition tpanel (f : R -> R) (x h : R) : R := h * ((f x + f (x + h)) / 2).
Definition tsum (f : R -> R) (a h : R) (N : nat) : R := rsum (fun i => tpanel f (a + h * INR i) h) N.
Definition msum (f : R -> R) (a h : R) (N : nat) : R := rsum (fun i => h * f (a + h * INR i + h / 2)) N.

Lemma trapezium0_tsum f a b N : trapezium0 f a b (S (S N)) = tsum f a ((b - a) / INR (S N)) (S N).
Proof.
  unfold trapezium0, tsum. cbn [Nat.sub]. rewrite !Nat.sub_0_r. rewrite fold_rsum. set (h := (b - a) / INR (S N)).
  assert (HB : a + h * INR (S N) = b).
  { unfold h. field. apply not_0_INR. lia. }
  rewrite <- HB. clearbody h. clear HB. induction N as [|N IH].
  - unfold tpanel. cbn. rewrite !Rmult_0_r, !Rplus_0_r, !Rmult_1_r. ring.
  - cbn [rsum] in *. rewrite <- IH. unfold tpanel.
    replace (a + h * INR (S N) + h) with (a + h * INR (S (S N))) by (rewrite (S_INR (S N)); ring).
    cbn [Nat.add]. field.
Qed.

Lemma tsum_double f a h N : tsum f a (h / 2) (2 * N) = (tsum f a h N + msum f a h N) / 2.
Proof.
  unfold tsum, msum. induction N as [|N IH]; [cbn; field|].
  replace (2 * S N)%nat with (S (S (2 * N))) by lia. cbn [rsum]. rewrite IH. unfold tpanel.
  replace (a + h / 2 * INR (2 * N)) with (a + h * INR N) by (rewrite mult_INR; cbn [INR]; field).
  replace (a + h / 2 * INR (S (2 * N))) with (a + h * INR N + h / 2) by (rewrite S_INR, mult_INR; cbn [INR]; field).
  replace (a + h * INR N + h / 2 + h / 2) with (a + h * INR N + h) by field. field.
Qed.

(* ---- convex functions ---- *)
Definition convex_on (a b : R) (f : R -> R) : Prop :=
  forall x y t, a <= x <= b -> a <= y <= b -> 0 <= t <= 1 -> f (t * x + (1 - t) * y) <= t * f x + (1 - t) * f y.
Definition concave_on (a b : R) (f : R -> R) : Prop :=
  forall x y t, a <= x <= b -> a <= y <= b -> 0 <= t <= 1 -> t * f x + (1 - t) * f y <= f (t * x + (1 - t) * y).
Lemma convex_sub a b f l r : convex_on a b f -> a <= l -> r <= b -> convex_on l r f.
Proof. intros H H1 H2 x y t Hx Hy Ht. apply H; lra. Qed.

Lemma is_RInt_affine l r c d : is_RInt (fun x => c + d * (x - l)) l r ((r - l) * (c + d * (r - l) / 2)).
Proof.
  replace ((r - l) * (c + d * (r - l) / 2)) with ((c * r + d * (r - l) ^ 2 / 2) - (c * l + d * (l - l) ^ 2 / 2)) by field.
  apply (is_RInt_derive (V := R_CompleteNormedModule) (fun x => c * x + d * (x - l) ^ 2 / 2) (fun x => c + d * (x - l))).
  - intros x _. auto_derive; [exact I|]. field.
  - intros x _. apply (ex_derive_continuous (V := R_NormedModule)). auto_derive. exact I.
Qed.

Lemma panel_bounds f x h I : 0 <= h -> convex_on x (x + h) f -> is_RInt f x (x + h) I -> h * f (x + h / 2) <= I <= tpanel f x h.
Proof.
  intros Hh HC HI. destruct (Req_dec h 0) as [->|Hn].
  { rewrite Rplus_0_r in HI. assert (I = 0) as ->; [|unfold tpanel; lra].
    pose proof (is_RInt_unique _ _ _ _ HI) as U. rewrite RInt_point in U. symmetry. exact U. }
  assert (Hp : 0 < h) by lra. split.
  - assert (HR : is_RInt (fun y => f (2 * x + h - y)) x (x + h) I).
    { pose proof (is_RInt_swap _ _ _ _ HI) as HS.
      replace (x + h) with (-1 * x + (2 * x + h)) in HS at 1 by ring. replace x with (-1 * (x + h) + (2 * x + h)) in HS at 3 by ring.
      apply (is_RInt_comp_lin f (-1) (2 * x + h) x (x + h)) in HS. apply (is_RInt_opp (V := R_NormedModule)) in HS.
      rewrite opp_opp in HS. eapply is_RInt_ext; [|exact HS]. intros y _. unfold opp, scal; cbn; unfold mult; cbn.
      replace (-1 * y + (2 * x + h)) with (2 * x + h - y) by ring. ring. }
    pose proof (is_RInt_plus _ _ _ _ _ _ HI HR) as HS.
    pose proof (is_RInt_const (V := R_NormedModule) x (x + h) (2 * f (x + h / 2))) as HK.
    assert (L : scal (x + h - x) (2 * f (x + h / 2)) <= plus I I).
    { apply (is_RInt_le (fun _ => 2 * f (x + h / 2)) (fun y => plus (f y) (f (2 * x + h - y))) x (x + h)); [lra|exact HK|exact HS|].
      intros y Hy. pose proof (HC y (2 * x + h - y) (1 / 2) ltac:(lra) ltac:(lra) ltac:(lra)) as C.
      replace (1 / 2 * y + (1 - 1 / 2) * (2 * x + h - y)) with (x + h / 2) in C by field.
      unfold plus; cbn. lra. }
    unfold scal, plus in L; cbn in L; unfold mult in L; cbn in L. nra.
  - pose proof (is_RInt_affine x (x + h) (f x) ((f (x + h) - f x) / h)) as HA.
    replace ((x + h - x) * (f x + (f (x + h) - f x) / h * (x + h - x) / 2)) with (tpanel f x h) in HA by (unfold tpanel; field; lra).
    apply (is_RInt_le f _ x (x + h) I _ ltac:(lra) HI HA).
    intros y Hy. set (t := (y - x) / h).
    assert (Ht : 0 <= t <= 1).
    { unfold t. split; [apply Rmult_le_pos; [lra|left; apply Rinv_0_lt_compat; lra]|].
      apply Rmult_le_reg_r with h; [lra|]. unfold Rdiv. rewrite Rmult_assoc, Rinv_l by lra. lra. }
    pose proof (HC (x + h) x t ltac:(lra) ltac:(lra) Ht) as C.
    assert (EY : t * (x + h) + (1 - t) * x = y) by (unfold t; field; lra). rewrite EY in C.
    replace (f x + (f (x + h) - f x) / h * (y - x)) with (t * f (x + h) + (1 - t) * f x) by (unfold t; field; lra). exact C.
Qed.

Lemma sum_bounds f a h : 0 <= h -> forall N I, convex_on a (a + h * INR N) f -> is_RInt f a (a + h * INR N) I ->
  msum f a h N <= I <= tsum f a h N.
Proof.
  intros Hh. induction N as [|N IH]; intros I HC HI.
  - cbn in HI. rewrite Rmult_0_r, Rplus_0_r in HI. assert (I = 0) as ->; [|unfold msum, tsum; cbn; lra].
    pose proof (is_RInt_unique _ _ _ _ HI) as U. rewrite RInt_point in U. symmetry. exact U.
  - pose proof (pos_INR N) as PN. set (m := a + h * INR N) in *.
    assert (EE : a + h * INR (S N) = m + h) by (unfold m; rewrite S_INR; ring). rewrite EE in *.
    assert (Hm : a <= m) by (unfold m; nra).
    assert (X : ex_RInt f a (m + h)) by (exists I; exact HI).
    assert (X1 : ex_RInt f a m) by (apply (ex_RInt_Chasles_1 f a m (m + h)); [lra|exact X]).
    assert (X2 : ex_RInt f m (m + h)) by (apply (ex_RInt_Chasles_2 f a m (m + h)); [lra|exact X]).
    destruct X1 as [I1 H1], X2 as [I2 H2].
    assert (EI : I = I1 + I2).
    { rewrite <- (is_RInt_unique _ _ _ _ HI). apply is_RInt_unique. apply (is_RInt_Chasles (V := R_NormedModule) f a m (m + h)); assumption. }
    assert (HL : m <= m + h) by lra.
    destruct (IH I1 (convex_sub _ _ _ _ _ HC (Rle_refl a) HL) H1) as [B1 B2].
    destruct (panel_bounds f m h I2 Hh (convex_sub _ _ _ _ _ HC Hm (Rle_refl _)) H2) as [B3 B4].
    unfold msum, tsum in *. cbn [rsum]. fold m. lra.
Qed.

(* halving the panels of a convex integrand *)
Lemma trapezium0_double f a b N I : a <= b -> convex_on a b f -> is_RInt f a b I ->
  let T1 := trapezium0 f a b (S (S N)) in let T2 := trapezium0 f a b (S (2 * S N)) in
  0 <= T2 - I <= T1 - T2.
Proof.
  intros Hab HC HI. cbv zeta. replace (S (2 * S N)) with (S (S (S (2 * N)))) by lia. rewrite !trapezium0_tsum.
  replace (S (S (2 * N))) with (2 * S N)%nat by lia. set (h := (b - a) / INR (S N)).
  assert (HN : 0 < INR (S N)) by (apply lt_0_INR; lia).
  assert (Hh : 0 <= h) by (unfold h; apply Rmult_le_pos; [lra|left; apply Rinv_0_lt_compat; exact HN]).
  assert (H2 : (b - a) / INR (2 * S N) = h / 2) by (rewrite mult_INR; unfold h; cbn [INR]; field; cbn [INR] in HN; lra).
  rewrite H2, tsum_double. assert (HB : a + h * INR (S N) = b) by (unfold h; field; lra).
  rewrite <- HB in HC, HI. destruct (sum_bounds f a h Hh (S N) I HC HI) as [B1 B2].
  assert (h / 2 = h - h / 2) by field.
  assert (S2 : a + h / 2 * INR (2 * S N) = a + h * INR (S N)) by (rewrite mult_INR; replace (INR 2) with 2 by (cbn; ring); field).
  assert (Hh2 : 0 <= h / 2) by lra.
  pose proof (sum_bounds f a (h / 2) Hh2 (2 * S N) I) as Q. rewrite S2 in Q. specialize (Q HC HI). rewrite tsum_double in Q. lra.
Qed.

(* ---- convex or concave ---- *)
Lemma trapezium0_scal s f a b N : trapezium0 (fun x => s * f x) a b (S (S N)) = s * trapezium0 f a b (S (S N)).
Proof.
  rewrite !trapezium0_tsum. unfold tsum. rewrite rsum_scal. apply rsum_ext. intros i _. unfold tpanel, Rdiv. ring.
Qed.
Definition bent (s a b : R) (f : R -> R) : Prop := convex_on a b (fun x => s * f x).
Lemma bent_double s f a b N I : a <= b -> bent s a b f -> is_RInt f a b I ->
  let T1 := trapezium0 f a b (S (S N)) in let T2 := trapezium0 f a b (S (2 * S N)) in
  0 <= s * (T2 - I) <= s * (T1 - T2).
Proof.
  intros Hab HC HI. cbv zeta.
  pose proof (trapezium0_double (fun x => s * f x) a b N (s * I) Hab HC (is_RInt_scal (V := R_NormedModule) f a b s I HI)) as D. cbv zeta in D.
  replace (S (2 * S N)) with (S (S (S (2 * N)))) in * by lia. rewrite !trapezium0_scal in D. lra.
Qed.

(* ---- adaptive subdivision ---- *)
Lemma adaptive_spec f s ea er : forall d a b c, valid f c ->
  let '((r, e), c') := adaptive f ea er d a b c in
  valid f c' /\ (NoDup (keys c) -> NoDup (keys c')) /\
  forall I, a <= b -> bent s a b f -> is_RInt f a b I -> 0 <= s * (r - I) <= - (s * e).
Proof.
  induction d as [|d IH]; intros a b c V; cbn [adaptive].
  - destruct (trapezium_spec f a b 8 c ltac:(lia) V) as (E1 & V1 & N1 & _). destruct (trapezium f a b 8 c) as [r1 c1]. cbn [fst snd] in *.
    destruct (trapezium_spec f a b 15 c1 ltac:(lia) V1) as (E2 & V2 & N2 & _). destruct (trapezium f a b 15 c1) as [r2 c2]. cbn [fst snd] in *.
    subst. split; [exact V2|]. split; [auto|]. intros I Hab HC HI. pose proof (bent_double s f a b 6 I Hab HC HI) as D. cbn zeta in D.
    change (S (2 * 7)) with 15%nat in D. lra.
  - destruct (trapezium_spec f a b 8 c ltac:(lia) V) as (E1 & V1 & N1 & _). destruct (trapezium f a b 8 c) as [r1 c1]. cbn [fst snd] in *.
    destruct (trapezium_spec f a b 15 c1 ltac:(lia) V1) as (E2 & V2 & N2 & _). destruct (trapezium f a b 15 c1) as [r2 c2]. cbn [fst snd] in *.
    destruct (small ea er (r2 - r1) r2).
    + subst. split; [exact V2|]. split; [auto|]. intros I Hab HC HI. pose proof (bent_double s f a b 6 I Hab HC HI) as D. cbn zeta in D.
      change (S (2 * 7)) with 15%nat in D. lra.
    + pose proof (IH a ((a + b) / 2) c2 V2) as HL. destruct (adaptive f ea er d a ((a + b) / 2) c2) as [[lr le] c3]. destruct HL as (V3 & N3 & HL).
      pose proof (IH ((a + b) / 2) b c3 V3) as HR. destruct (adaptive f ea er d ((a + b) / 2) b c3) as [[rr re] c4]. destruct HR as (V4 & N4 & HR).
      split; [exact V4|]. split; [auto|]. intros I Hab HC HI.
      assert (X : ex_RInt f a b) by (exists I; exact HI).
      assert (X1 : ex_RInt f a ((a + b) / 2)) by (apply (ex_RInt_Chasles_1 f a _ b); [lra|exact X]).
      assert (X2 : ex_RInt f ((a + b) / 2) b) by (apply (ex_RInt_Chasles_2 f a _ b); [lra|exact X]).
      destruct X1 as [I1 H1], X2 as [I2 H2].
      assert (EI : I = I1 + I2).
      { rewrite <- (is_RInt_unique _ _ _ _ HI). apply is_RInt_unique. apply (is_RInt_Chasles (V := R_NormedModule) f a ((a + b) / 2) b); assumption. }
      assert (M1 : a <= (a + b) / 2) by lra. assert (M2 : (a + b) / 2 <= b) by lra.
      specialize (HL I1 M1 (convex_sub _ _ _ _ _ HC (Rle_refl a) M2) H1).
      specialize (HR I2 M2 (convex_sub _ _ _ _ _ HC M1 (Rle_refl b)) H2). subst I. lra.
Qed.

(* ---- repeated halving ---- *)
Definition pts (k : nat) : nat := S (2 ^ k * 19).
Lemma pts_S k : pts (S k) = (pts k + (pts k - 1))%nat.
Proof. unfold pts. rewrite Nat.pow_succ_r'. lia. Qed.
Lemma pts_ge k : (20 <= pts k)%nat.
Proof. unfold pts. pose proof (Nat.pow_nonzero 2 k ltac:(lia)). nia. Qed.
Lemma grid_sub a b k x : In x (grid a b (pts k)) -> In x (grid a b (pts (S k))).
Proof.
  unfold grid. rewrite !in_map_iff. intros (i & E & Hi). apply in_seq in Hi. exists (2 * i)%nat. pose proof (pts_ge k) as G. split.
  - rewrite <- E. rewrite pts_S. replace (pts k + (pts k - 1) - 1)%nat with (2 * (pts k - 1))%nat by lia.
    rewrite !mult_INR. replace (INR 2) with 2 by (cbn; ring). assert (0 < INR (pts k - 1)) by (apply lt_0_INR; lia). field. lra.
  - apply in_seq. rewrite pts_S. lia.
Qed.
Definition T (f : R -> R) (a b : R) (k : nat) : R := trapezium0 f a b (pts k).

Lemma refine_spec f a b ea er limit : forall fuel j out c, valid f c -> NoDup (keys c) ->
  (forall x, In x (keys c) <-> In x (grid a b (pts j))) -> (limit < pts j + fuel)%nat ->
  let '(st, out', c') := refine fuel f a b ea er limit (pts j) (T f a b j) out c in
  exists k, (j <= k)%nat /\ valid f c' /\ NoDup (keys c') /\ (forall x, In x (keys c') <-> In x (grid a b (pts k))) /\
    (k = j -> out' = out) /\
    ((j < k)%nat -> (pts k <= limit)%nat /\ out' = Some (T f a b k, T f a b k - T f a b (k - 1))) /\
    (st = O -> (j < k)%nat /\ small ea er (T f a b k - T f a b (k - 1)) (T f a b k) = true) /\
    (st <> O -> st = pts k /\ (limit < 2 * pts k - 1)%nat /\
                ((j < k)%nat -> small ea er (T f a b k - T f a b (k - 1)) (T f a b k) = false)) /\
    (forall i, (j < i < k)%nat -> small ea er (T f a b i - T f a b (i - 1)) (T f a b i) = false).
Proof.
  assert (STOP : forall j out c, valid f c -> NoDup (keys c) -> (forall x, In x (keys c) <-> In x (grid a b (pts j))) -> (limit < 2 * pts j - 1)%nat ->
    exists k, (j <= k)%nat /\ valid f c /\ NoDup (keys c) /\ (forall x, In x (keys c) <-> In x (grid a b (pts k))) /\
    (k = j -> out = out) /\
    ((j < k)%nat -> (pts k <= limit)%nat /\ out = Some (T f a b k, T f a b k - T f a b (k - 1))) /\
    (pts j = O -> (j < k)%nat /\ small ea er (T f a b k - T f a b (k - 1)) (T f a b k) = true) /\
    (pts j <> O -> pts j = pts k /\ (limit < 2 * pts k - 1)%nat /\
                ((j < k)%nat -> small ea er (T f a b k - T f a b (k - 1)) (T f a b k) = false)) /\
    (forall i, (j < i < k)%nat -> small ea er (T f a b i - T f a b (i - 1)) (T f a b i) = false)).
  { intros j out c V N K L. exists j. pose proof (pts_ge j). repeat split; try assumption; try apply K; try lia. }
  induction fuel as [|fuel IH]; intros j out c V N K HL; pose proof (pts_ge j) as G; cbn [refine].
  - apply STOP; try assumption. lia.
  - destruct (Nat.leb_spec (2 * pts j - 1) limit) as [L|L].
    2:{ apply STOP; assumption. }
    rewrite <- pts_S. pose proof (pts_ge (S j)) as G'.
    destruct (trapezium_spec f a b (pts (S j)) c ltac:(lia) V) as (E1 & V1 & N1 & K1). destruct (trapezium f a b (pts (S j)) c) as [r c1]. cbn [fst snd] in *.
    change (trapezium0 f a b (pts (S j))) with (T f a b (S j)) in E1. subst r. specialize (N1 N).
    assert (K2 : forall x, In x (keys c1) <-> In x (grid a b (pts (S j)))).
    { intros x. rewrite K1, K. split; [intros [Q|Q]; [now apply grid_sub|exact Q]|tauto]. }
    assert (SJ : (S j - 1 = j)%nat) by lia. pose proof (pts_S j) as PS.
    destruct (small ea er (T f a b (S j) - T f a b j) (T f a b (S j))) eqn:ES.
    + exists (S j). rewrite SJ. repeat split; try assumption; try apply K2; try lia.
    + pose proof (IH (S j) (Some (T f a b (S j), T f a b (S j) - T f a b j)) c1 V1 N1 K2 ltac:(lia)) as H.
      destruct (refine fuel f a b ea er limit (pts (S j)) (T f a b (S j)) _ c1) as [[st out'] c'].
      destruct H as (k & Hjk & Vk & Nk & Kk & O1 & O2 & S1 & S2 & SM). exists k.
      split; [lia|]. split; [exact Vk|]. split; [exact Nk|]. split; [exact Kk|]. split; [lia|].
      assert (EQ : k = S j -> small ea er (T f a b k - T f a b (k - 1)) (T f a b k) = false) by (intros ->; rewrite SJ; exact ES).
      split; [|split; [|split]].
      * intros _. destruct (Nat.eq_dec k (S j)) as [E|NE]; [|apply O2; lia]. rewrite (O1 E). subst k. rewrite SJ. split; [lia|reflexivity].
      * intros Z. destruct (S1 Z) as [A B]. split; [lia|exact B].
      * intros Z. destruct (S2 Z) as (A & B & C). split; [exact A|]. split; [exact B|]. intros _.
        destruct (Nat.eq_dec k (S j)) as [E|NE]; [now apply EQ|apply C; lia].
      * intros i Hi. destruct (Nat.eq_dec i (S j)) as [->|NE]; [rewrite SJ; exact ES|apply SM; lia].
Qed.

Lemma nonadaptive_spec f a b ea er limit st out c : nonadaptive_trapezium f a b ea er limit = (st, out, c) ->
  exists k, valid f c /\ NoDup (keys c) /\ (forall x, In x (keys c) <-> In x (grid a b (pts k))) /\
    (k = O -> out = None) /\
    ((0 < k)%nat -> (pts k <= limit)%nat /\ out = Some (T f a b k, T f a b k - T f a b (k - 1))) /\
    (st = O -> (0 < k)%nat /\ small ea er (T f a b k - T f a b (k - 1)) (T f a b k) = true) /\
    (st <> O -> st = pts k /\ (limit < 2 * pts k - 1)%nat /\
                ((0 < k)%nat -> small ea er (T f a b k - T f a b (k - 1)) (T f a b k) = false)) /\
    (forall i, (0 < i < k)%nat -> small ea er (T f a b i - T f a b (i - 1)) (T f a b i) = false).
Proof.
  unfold nonadaptive_trapezium. assert (V0 : valid f []) by constructor.
  destruct (trapezium_spec f a b 20 [] ltac:(lia) V0) as (E1 & V1 & N1 & K1). destruct (trapezium f a b 20 []) as [r c1]. cbn [fst snd] in *.
  change (trapezium0 f a b 20) with (T f a b 0) in E1. subst r. specialize (N1 (NoDup_nil R)).
  assert (K2 : forall x, In x (keys c1) <-> In x (grid a b (pts 0))).
  { intros x. rewrite K1. change (pts 0) with 20%nat. split; [intros [[]|Q]; exact Q|tauto]. }
  change 20%nat with (pts 0). pose proof (refine_spec f a b ea er limit limit 0 None c1 V1 N1 K2 ltac:(unfold pts; lia)) as H.
  intros E. rewrite E in H. destruct H as (k & _ & H). exists k. exact H.
Qed.

Lemma grid_length a b n l : a < b -> (2 <= n)%nat -> NoDup l -> (forall x, In x l <-> In x (grid a b n)) -> length l = n.
Proof.
  intros Hab Hn N H. assert (NG : NoDup (grid a b n)).
  { unfold grid. pose proof (INR_pos n Hn). apply FinFun.Injective_map_NoDup; [|apply seq_NoDup].
    intros i j E. apply INR_eq. assert (0 < (b - a) / INR (n - 1)) by (apply Rdiv_lt_0_compat; lra). nra. }
  assert (LG : length (grid a b n) = n) by (unfold grid; now rewrite map_length, seq_length).
  pose proof (NoDup_incl_length N (fun x Hx => proj1 (H x) Hx)). pose proof (NoDup_incl_length NG (fun x Hx => proj2 (H x) Hx)). lia.
Qed.
