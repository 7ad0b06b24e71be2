(* Bounds on the area of the Dalitz region by sums over cells *)
From Coq Require Import ZArith Reals Lra Psatz Lia.
From Coquelicot Require Import Coquelicot.
From Verif Require Import DalitzSpec.
Open Scope R_scope.

Lemma kallen_first m s c : kallen (m ^ 2) s (c ^ 2) = ((m - c) ^ 2 - s) * ((m + c) ^ 2 - s).
Proof. unfold kallen. ring. Qed.
Lemma kallen_second s a b : kallen s (a ^ 2) (b ^ 2) = (s - (a + b) ^ 2) * (s - (a - b) ^ 2).
Proof. unfold kallen. ring. Qed.

Section region.
Variables m a b c : R.
Hypothesis (Ha : 0 <= a) (Hb : 0 <= b) (Hc : 0 <= c) (Hab : 0 < a + b) (Hm : a + b + c <= m).
Let s1 := (a + b) ^ 2.
Let s2 := (m - c) ^ 2.
Let low s := ((m - c) ^ 2 - s) * ((m + c) ^ 2 - s).
Let high s := (s - (a + b) ^ 2) * (s - (a - b) ^ 2).

Lemma s1_pos : 0 < s1.
Proof. unfold s1. now apply pow_lt. Qed.
Lemma low_decr s t : s <= t -> t <= s2 -> 0 <= low t <= low s.
Proof.
  intros A B. unfold low, s2 in *. assert ((m - c) ^ 2 <= (m + c) ^ 2) by (apply pow_incr; lra).
  split; [apply Rmult_le_pos; lra|apply Rmult_le_compat; lra].
Qed.
Lemma high_incr s t : s1 <= s -> s <= t -> 0 <= high s /\ high s * t ^ 2 <= high t * s ^ 2.
Proof.
  intros A B. pose proof s1_pos as P. unfold high, s1 in *.
  assert (E : (a - b) ^ 2 <= (a + b) ^ 2) by nra. pose proof (pow2_ge_0 (a - b)) as Q.
  split; [apply Rmult_le_pos; lra|].
  set (x := (a + b) ^ 2) in *. set (y := (a - b) ^ 2) in *.
  replace ((s - x) * (s - y) * t ^ 2) with (((s - x) * t) * ((s - y) * t)) by ring.
  replace ((t - x) * (t - y) * s ^ 2) with (((t - x) * s) * ((t - y) * s)) by ring.
  apply Rmult_le_compat; nra.
Qed.
Lemma width_eq s : dalitz_width m a b c s = sqrt (low s * high s) / s.
Proof. unfold dalitz_width. now rewrite kallen_first, kallen_second. Qed.

Lemma cell_low l h s r : s1 <= l -> l <= s <= h -> h <= s2 -> 0 <= r -> (r * l) ^ 2 <= low h * high l -> r <= dalitz_width m a b c s.
Proof.
  intros A [B C] D Hr H. pose proof s1_pos as P. assert (Hs : 0 < s) by lra. rewrite width_eq. apply (proj1 (Rle_div_r _ _ _ Hs)).
  destruct (low_decr s h C D) as [L1 L2]. destruct (high_incr l s A B) as [G1 G2].
  rewrite <- (sqrt_pow2 (r * s)) by nra. apply sqrt_le_1_alt.
  apply (Rmult_le_reg_r (l ^ 2)); [apply pow_lt; lra|].
  replace ((r * s) ^ 2 * l ^ 2) with ((r * l) ^ 2 * s ^ 2) by ring.
  apply Rle_trans with (low h * high l * s ^ 2); [apply Rmult_le_compat_r; [apply pow2_ge_0|exact H]|].
  replace (low h * high l * s ^ 2) with (low h * (high l * s ^ 2)) by ring. replace (low s * high s * l ^ 2) with (low s * (high s * l ^ 2)) by ring.
  apply Rmult_le_compat; try assumption. apply Rmult_le_pos; [exact G1|apply pow2_ge_0].
Qed.
Lemma cell_high l h s r : s1 <= l -> l <= s <= h -> h <= s2 -> 0 <= r -> low l * high h <= (r * h) ^ 2 -> dalitz_width m a b c s <= r.
Proof.
  intros A [B C] D Hr H. pose proof s1_pos as P. assert (Hs : 0 < s) by lra. rewrite width_eq. apply (proj2 (Rle_div_l _ _ _ Hs)).
  destruct (low_decr l s B (Rle_trans _ _ _ C D)) as [L1 L2]. destruct (high_incr s h ltac:(lra) C) as [G1 G2].
  rewrite <- (sqrt_pow2 (r * s)) by nra. apply sqrt_le_1_alt.
  apply (Rmult_le_reg_r (h ^ 2)); [apply pow_lt; lra|].
  replace ((r * s) ^ 2 * h ^ 2) with ((r * h) ^ 2 * s ^ 2) by ring.
  apply Rle_trans with (low l * high h * s ^ 2); [|apply Rmult_le_compat_r; [apply pow2_ge_0|exact H]].
  replace (low l * high h * s ^ 2) with (low l * (high h * s ^ 2)) by ring. replace (low s * high s * h ^ 2) with (low s * (high s * h ^ 2)) by ring.
  apply Rmult_le_compat; try assumption. apply Rmult_le_pos; [exact G1|apply pow2_ge_0].
Qed.
Lemma width_continuous s : 0 < s -> continuous (dalitz_width m a b c) s.
Proof.
  intros Hs. unfold dalitz_width, Rdiv. apply (continuous_mult (U := R_UniformSpace) (K := R_AbsRing)).
  - apply (continuous_comp (fun s => kallen (m ^ 2) s (c ^ 2) * kallen s (a ^ 2) (b ^ 2)) sqrt); [|apply continuous_sqrt].
    apply (ex_derive_continuous (V := R_NormedModule)). unfold kallen. auto_derive; exact I.
  - apply (ex_derive_continuous (V := R_NormedModule)). auto_derive. lra.
Qed.
Lemma width_integrable l h : 0 < l -> l <= h -> ex_RInt (dalitz_width m a b c) l h.
Proof.
  intros A B. apply (ex_RInt_continuous (V := R_CompleteNormedModule)). intros s [Hs _]. rewrite Rmin_left in Hs by lra.
  apply width_continuous. lra.
Qed.
End region.

(* the masses are M w etc.; w is the unit *)
Section sums.
Variables M A B C : Z.
Let lowZ (s : Z) : Z := (((M - C) * (M - C) - s) * ((M + C) * (M + C) - s))%Z.
Let highZ (s : Z) : Z := ((s - (A + B) * (A + B)) * (s - (A - B) * (A - B)))%Z.
Let end2 : Z := ((M - C) * (M - C))%Z.
Let start : Z := ((A + B) * (A + B))%Z.
Definition cell_lo (l h : Z) : Z := ((h - l) * (Z.sqrt (lowZ h * highZ l) / l))%Z.
Definition cell_hi (l h : Z) : Z := ((h - l) * ((Z.sqrt (lowZ l * highZ h) + 1) / h + 1))%Z.
Fixpoint sum_cells (cell : Z -> Z -> Z) (d : Z) (k : nat) (l : Z) : Z :=
  match k with
  | O => cell l end2
  | S k => (cell l (l + d) + sum_cells cell d k (l + d))%Z
  end.
Definition area_bounds (k : nat) : Z * Z :=
  let d := ((end2 - start) / (Z.of_nat k + 1))%Z in (sum_cells cell_lo d k start, sum_cells cell_hi d k start).

Hypothesis (HA : (0 <= A)%Z) (HB : (0 <= B)%Z) (HC : (0 <= C)%Z) (HAB : (0 < A + B)%Z) (HM : (A + B + C <= M)%Z).
Variable w : R.
Hypothesis Hw : 0 < w.
Let f := dalitz_width (IZR M * w) (IZR A * w) (IZR B * w) (IZR C * w).

Lemma masses_ok : 0 <= IZR A * w /\ 0 <= IZR B * w /\ 0 <= IZR C * w /\ 0 < IZR A * w + IZR B * w /\ IZR A * w + IZR B * w + IZR C * w <= IZR M * w.
Proof.
  apply IZR_le in HA, HB, HC, HM. apply IZR_lt in HAB. rewrite !plus_IZR in HM. rewrite plus_IZR in HAB.
  repeat split; try (apply Rmult_le_pos; lra); nra.
Qed.
Lemma start_pos : (0 < start)%Z.
Proof. unfold start. nia. Qed.

Lemma cell_sound l h : (start <= l)%Z -> (l <= h)%Z -> (h <= end2)%Z ->
  exists v, is_RInt f (IZR l * w ^ 2) (IZR h * w ^ 2) v /\ IZR (cell_lo l h) * w ^ 4 <= v <= IZR (cell_hi l h) * w ^ 4.
Proof.
  intros Hs Hl Hh. destruct masses_ok as (M1 & M2 & M3 & M4 & M5). pose proof start_pos as P.
  assert (W2 : 0 < w ^ 2) by (now apply pow_lt). assert (W4 : 0 < w ^ 4) by (now apply pow_lt).
  assert (Pl : 0 < IZR l) by (apply IZR_lt; lia). assert (Hl' : IZR l <= IZR h) by (now apply IZR_le).
  assert (S1 : (IZR A * w + IZR B * w) ^ 2 <= IZR l * w ^ 2).
  { replace ((IZR A * w + IZR B * w) ^ 2) with (IZR start * w ^ 2) by (unfold start; rewrite mult_IZR, plus_IZR; ring).
    apply Rmult_le_compat_r; [lra|now apply IZR_le]. }
  assert (S2 : IZR h * w ^ 2 <= (IZR M * w - IZR C * w) ^ 2).
  { replace ((IZR M * w - IZR C * w) ^ 2) with (IZR end2 * w ^ 2) by (unfold end2; rewrite mult_IZR, minus_IZR; ring).
    apply Rmult_le_compat_r; [lra|now apply IZR_le]. }
  assert (EL : forall z, ((IZR M * w - IZR C * w) ^ 2 - IZR z * w ^ 2) * ((IZR M * w + IZR C * w) ^ 2 - IZR z * w ^ 2) = IZR (lowZ z) * w ^ 4).
  { intros z. unfold lowZ. rewrite mult_IZR, !minus_IZR, !mult_IZR, minus_IZR, plus_IZR. ring. }
  assert (EH : forall z, (IZR z * w ^ 2 - (IZR A * w + IZR B * w) ^ 2) * (IZR z * w ^ 2 - (IZR A * w - IZR B * w) ^ 2) = IZR (highZ z) * w ^ 4).
  { intros z. unfold highZ. rewrite mult_IZR, !minus_IZR, !mult_IZR, minus_IZR, plus_IZR. ring. }
  assert (lowZ_pos : forall z, (z <= end2)%Z -> (0 <= lowZ z)%Z).
  { intros z Hz. unfold lowZ, end2 in *. apply Z.mul_nonneg_nonneg; nia. }
  assert (highZ_pos : forall z, (start <= z)%Z -> (0 <= highZ z)%Z).
  { intros z Hz. unfold highZ, start in *. apply Z.mul_nonneg_nonneg; nia. }
  destruct (width_integrable (IZR M * w) (IZR A * w) (IZR B * w) (IZR C * w) (IZR l * w ^ 2) (IZR h * w ^ 2)) as [v Hv];
    [now apply Rmult_lt_0_compat|apply Rmult_le_compat_r; lra|].
  exists v. split; [exact Hv|].
  assert (HWD : IZR l * w ^ 2 <= IZR h * w ^ 2) by (apply Rmult_le_compat_r; lra).
  set (r := (Z.sqrt (lowZ h * highZ l) / l)%Z). set (R := ((Z.sqrt (lowZ l * highZ h) + 1) / h + 1)%Z).
  assert (Hr : (0 <= r)%Z) by (apply Z.div_pos; [apply Z.sqrt_nonneg|lia]).
  assert (HR : (0 <= R)%Z). { unfold R. assert (0 <= (Z.sqrt (lowZ l * highZ h) + 1) / h)%Z by (apply Z.div_pos; [pose proof (Z.sqrt_nonneg (lowZ l * highZ h))|]; lia). lia. }
  assert (Br : ((r * l) * (r * l) <= lowZ h * highZ l)%Z).
  { assert (N : (0 <= lowZ h * highZ l)%Z) by (apply Z.mul_nonneg_nonneg; [apply lowZ_pos|apply highZ_pos]; lia).
    pose proof (Z.sqrt_spec _ N) as [Q _]. assert (r * l <= Z.sqrt (lowZ h * highZ l))%Z by (unfold r; rewrite Z.mul_comm; apply Z.mul_div_le; lia).
    eapply Z.le_trans; [|exact Q]. apply Z.mul_le_mono_nonneg; nia. }
  assert (BR : (lowZ l * highZ h <= (R * h) * (R * h))%Z).
  { assert (N : (0 <= lowZ l * highZ h)%Z) by (apply Z.mul_nonneg_nonneg; [apply lowZ_pos|apply highZ_pos]; lia).
    pose proof (Z.sqrt_spec _ N) as [_ Q]. assert (Z.succ (Z.sqrt (lowZ l * highZ h)) <= R * h)%Z.
    { unfold R. rewrite <- Z.add_1_r. pose proof (Z.mul_succ_div_gt (Z.sqrt (lowZ l * highZ h) + 1) h ltac:(lia)). rewrite Z.add_1_r. lia. }
    pose proof (Z.sqrt_nonneg (lowZ l * highZ h)).
    apply Z.le_trans with (Z.succ (Z.sqrt (lowZ l * highZ h)) * Z.succ (Z.sqrt (lowZ l * highZ h)))%Z; [lia|]. apply Z.mul_le_mono_nonneg; lia. }
  assert (IC : forall k : Reals.Rdefinitions.R, is_RInt (fun _ => k) (IZR l * w ^ 2) (IZR h * w ^ 2) (k * ((IZR h - IZR l) * w ^ 2))).
  { intros k. replace (k * ((IZR h - IZR l) * w ^ 2)) with (scal (IZR h * w ^ 2 - IZR l * w ^ 2) k) by (unfold scal; cbn; unfold mult; cbn; ring). apply (is_RInt_const (V := R_NormedModule)). }
  split.
  - unfold cell_lo. fold r. rewrite mult_IZR, minus_IZR. replace ((IZR h - IZR l) * IZR r * w ^ 4) with ((IZR r * w ^ 2) * ((IZR h - IZR l) * w ^ 2)) by ring.
    refine (is_RInt_le (fun _ => IZR r * w ^ 2) f _ _ _ _ HWD (IC _) Hv _). intros s Hs'.
    apply (cell_low (IZR M * w) (IZR A * w) (IZR B * w) (IZR C * w) M1 M2 M3 M4 M5 (IZR l * w ^ 2) (IZR h * w ^ 2)); try assumption; try lra.
    + apply Rmult_le_pos; [now apply IZR_le|lra].
    + rewrite EL, EH. replace ((IZR r * w ^ 2 * (IZR l * w ^ 2)) ^ 2) with (IZR ((r * l) * (r * l)) * w ^ 8) by (rewrite !mult_IZR; ring).
      replace (IZR (lowZ h) * w ^ 4 * (IZR (highZ l) * w ^ 4)) with (IZR (lowZ h * highZ l) * w ^ 8) by (rewrite mult_IZR; ring).
      apply Rmult_le_compat_r; [left; now apply pow_lt|now apply IZR_le].
  - unfold cell_hi. fold R. rewrite mult_IZR, minus_IZR. replace ((IZR h - IZR l) * IZR R * w ^ 4) with ((IZR R * w ^ 2) * ((IZR h - IZR l) * w ^ 2)) by ring.
    refine (is_RInt_le f (fun _ => IZR R * w ^ 2) _ _ _ _ HWD Hv (IC _) _). intros s Hs'.
    apply (cell_high (IZR M * w) (IZR A * w) (IZR B * w) (IZR C * w) M1 M2 M3 M4 M5 (IZR l * w ^ 2) (IZR h * w ^ 2)); try assumption; try lra.
    + apply Rmult_le_pos; [now apply IZR_le|lra].
    + rewrite EL, EH. replace ((IZR R * w ^ 2 * (IZR h * w ^ 2)) ^ 2) with (IZR ((R * h) * (R * h)) * w ^ 8) by (rewrite !mult_IZR; ring).
      replace (IZR (lowZ l) * w ^ 4 * (IZR (highZ h) * w ^ 4)) with (IZR (lowZ l * highZ h) * w ^ 8) by (rewrite mult_IZR; ring).
      apply Rmult_le_compat_r; [left; now apply pow_lt|now apply IZR_le].
Qed.
Lemma sums_sound d k : (0 <= d)%Z -> forall l, (start <= l)%Z -> (l + Z.of_nat k * d <= end2)%Z ->
  exists v, is_RInt f (IZR l * w ^ 2) (IZR end2 * w ^ 2) v /\ IZR (sum_cells cell_lo d k l) * w ^ 4 <= v <= IZR (sum_cells cell_hi d k l) * w ^ 4.
Proof.
  intros Hd. induction k as [|k IH]; intros l Hl He.
  - cbn [sum_cells]. apply cell_sound; lia.
  - destruct (cell_sound l (l + d)) as (v & Iv & Bv); [lia..|]. destruct (IH (l + d)%Z) as (u & Iu & Bu); [lia..|].
    exists (plus v u). split; [exact (is_RInt_Chasles _ _ _ _ _ _ Iv Iu)|]. cbn [sum_cells]. rewrite !plus_IZR. unfold plus; cbn. lra.
Qed.
Lemma area_sound k S : dalitz_area_is (IZR M * w) (IZR A * w) (IZR B * w) (IZR C * w) S ->
  IZR (fst (area_bounds k)) * w ^ 4 <= S <= IZR (snd (area_bounds k)) * w ^ 4.
Proof.
  intros HS. unfold area_bounds. cbn [fst snd]. set (d := ((end2 - start) / (Z.of_nat k + 1))%Z).
  assert (D0 : (0 <= end2 - start)%Z) by (unfold end2, start; nia).
  assert (D1 : (0 <= d)%Z) by (apply Z.div_pos; lia).
  assert (D2 : ((Z.of_nat k + 1) * d <= end2 - start)%Z) by (apply Z.mul_div_le; lia).
  destruct (sums_sound d k D1 start) as (v & Iv & Bv); [lia|nia|].
  replace S with v; [exact Bv|]. unfold dalitz_area_is in HS.
  replace ((IZR A * w + IZR B * w) ^ 2) with (IZR start * w ^ 2) in HS by (unfold start; rewrite mult_IZR, plus_IZR; ring).
  replace ((IZR M * w - IZR C * w) ^ 2) with (IZR end2 * w ^ 2) in HS by (unfold end2; rewrite mult_IZR, minus_IZR; ring).
  apply (is_RInt_unique (V := R_CompleteNormedModule)) in Iv, HS. exact (eq_trans (eq_sym Iv) HS).
Qed.
Lemma area_exists : exists S, dalitz_area_is (IZR M * w) (IZR A * w) (IZR B * w) (IZR C * w) S.
Proof.
  destruct masses_ok as (M1 & M2 & M3 & M4 & M5). destruct (width_integrable (IZR M * w) (IZR A * w) (IZR B * w) (IZR C * w) ((IZR A * w + IZR B * w) ^ 2) ((IZR M * w - IZR C * w) ^ 2)) as [v Hv].
  - now apply pow_lt.
  - apply pow_incr. lra.
  - now exists v.
Qed.
End sums.
