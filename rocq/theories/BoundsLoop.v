(* the parallel loops and the limits they use *)
From Coq Require Import Reals Lra Psatz Permutation.
From Verif Require Import Base FunctionalModel DsModel DsProofs DsLimits BoundsModel BoundsProofs BoundsProofs3.
Open Scope R_scope.

Lemma nth_set_nth_eq n x (l : list R) : (n < length l)%nat -> nth n (set_nth n x l) 0 = x.
Proof. intros H. apply (nth_error_nth _ n). now apply nth_error_set_nth_eq. Qed.
Lemma nth_set_nth_ne n k x (l : list R) : n <> k -> nth k (set_nth n x l) 0 = nth k l 0.
Proof.
  intros H. destruct (nth_error l k) eqn:E.
  - rewrite (nth_error_nth _ _ 0 E). apply (nth_error_nth _ k). now rewrite nth_error_set_nth_ne.
  - assert (length l <= k)%nat by (now apply nth_error_None). rewrite !nth_overflow; auto. now rewrite set_nth_length.
Qed.

(* what an iteration adds when its limits do not depend on the private copies *)
Definition added {Lim} (value : R -> Lim -> R) (f : R -> option Lim) (p : R) : R := match f p with None => 0 | Some l => value p l end.

Lemma run_length {St Lim} (step : St -> R -> St * option Lim) value ps trace : forall priv v, length (run step value ps priv trace v) = length v.
Proof.
  induction trace as [|[th i] tr IH]; intros priv v; cbn; auto.
  destruct (step (priv th) (nth i ps 0)) as [st lim]. rewrite IH. destruct lim; auto. now rewrite set_nth_length.
Qed.
Lemma run_nth {St Lim} (step : St -> R -> St * option Lim) value ps f (Inv : St -> Prop) :
  (forall st i, (i < length ps)%nat -> Inv st -> snd (step st (nth i ps 0)) = f (nth i ps 0) /\ Inv (fst (step st (nth i ps 0)))) ->
  forall trace priv v, (forall t, Inv (priv t)) -> NoDup (map snd trace) -> (forall e, In e trace -> (snd e < length ps)%nat) ->
  length v = length ps ->
  forall k, nth k (run step value ps priv trace v) 0 =
            if in_dec Nat.eq_dec k (map snd trace) then nth k v 0 + added value f (nth k ps 0) else nth k v 0.
Proof.
  intros HI. induction trace as [|[th i] tr IH]; intros priv v HP HND HB HL k; cbn [run].
  - destruct (in_dec Nat.eq_dec k (map snd [])) as [[]|]; reflexivity.
  - cbn [map snd] in HND. inversion HND as [|? ? Hi HND']; subst.
    assert (Hlt : (i < length ps)%nat) by (exact (HB _ (or_introl eq_refl))).
    destruct (HI (priv th) i Hlt (HP th)) as (Hlim & Hst).
    destruct (step (priv th) (nth i ps 0)) as [st lim]. cbn [fst snd] in Hlim, Hst. subst lim.
    assert (HP' : forall t, Inv ((fun t => if (t =? th)%nat then st else priv t) t)) by (intros t; cbv beta; destruct (t =? th)%nat; auto).
    assert (HB' : forall e, In e tr -> (snd e < length ps)%nat) by (intros e He; apply HB; now right).
    assert (G : forall v', length v' = length ps -> v' = match f (nth i ps 0) with
                      | None => v
                      | Some l => set_nth i (nth i v 0 + value (nth i ps 0) l) v
                      end -> nth k (run step value ps (fun t => if (t =? th)%nat then st else priv t) tr v') 0 =
       (if in_dec Nat.eq_dec k (i :: map snd tr) then nth k v 0 + added value f (nth k ps 0) else nth k v 0)).
    { intros v' HL' HV. rewrite (IH _ v' HP' HND' HB' HL' k).
      assert (Hk : nth k v' 0 = if Nat.eq_dec i k then nth k v 0 + added value f (nth k ps 0) else nth k v 0).
      { unfold added. subst v'. destruct (Nat.eq_dec i k) as [->|N].
        - destruct (f (nth k ps 0)); [rewrite nth_set_nth_eq by lia; reflexivity|ring].
        - destruct (f (nth i ps 0)); [now apply nth_set_nth_ne|reflexivity]. }
      destruct (in_dec Nat.eq_dec k (map snd tr)) as [I|I]; destruct (in_dec Nat.eq_dec k (i :: map snd tr)) as [J|J].
      - rewrite Hk. destruct (Nat.eq_dec i k) as [->|_]; [contradiction|reflexivity].
      - exfalso. apply J. now right.
      - rewrite Hk. destruct (Nat.eq_dec i k) as [->|N]; [reflexivity|]. exfalso. destruct J; [contradiction|contradiction].
      - rewrite Hk. destruct (Nat.eq_dec i k) as [->|N]; [exfalso; apply J; now left|reflexivity]. }
    apply G; [|reflexivity]. destruct (f (nth i ps 0)); auto. now rewrite set_nth_length.
Qed.

(* every iteration runs exactly once, on some thread, in some order *)
Definition complete (n : nat) (trace : list (nat * nat)) : Prop := Permutation (map snd trace) (seq 0 n).

Lemma run_complete {St Lim} (step : St -> R -> St * option Lim) value ps f (Inv : St -> Prop) st0 trace :
  (forall st i, (i < length ps)%nat -> Inv st -> snd (step st (nth i ps 0)) = f (nth i ps 0) /\ Inv (fst (step st (nth i ps 0)))) ->
  Inv st0 -> complete (length ps) trace ->
  run step value ps (fun _ => st0) trace (map (fun _ => 0) ps) = map (fun p => 0 + added value f p) ps.
Proof.
  intros HI H0 HC. apply nth_ext with (d := 0) (d' := 0); [rewrite run_length, !map_length; reflexivity|].
  intros k Hk. rewrite run_length, map_length in Hk.
  rewrite (run_nth step value ps f Inv HI trace (fun _ => st0)); auto.
  - assert (HIn : In k (map snd trace)) by (eapply Permutation_in; [symmetry; exact HC|]; apply in_seq; lia).
    destruct (in_dec Nat.eq_dec k (map snd trace)) as [_|N]; [|contradiction].
    rewrite (nth_indep (map (fun p => 0 + added value f p) ps) 0 (0 + added value f 0)) by (now rewrite map_length).
    rewrite (map_nth (fun p => 0 + added value f p)). f_equal. exact (map_nth (fun _ : R => 0) ps 0 k).
  - eapply Permutation_NoDup; [symmetry; exact HC|]. apply seq_NoDup.
  - intros e He. assert (In (snd e) (seq 0 (length ps))) by (eapply Permutation_in; [exact HC|]; now apply in_map). apply in_seq in H. lia.
  - now rewrite map_length.
Qed.

Lemma decay_schedule value rs min_1 max_1 max_3 ps trace : side_sum rs 4 = DECAY -> complete (length ps) trace ->
  integration4 value rs min_1 max_1 max_3 ps trace =
  map (fun p => 0 + added value (fun p0 => snd (p1_step rs max_3 (Some min_1, Some max_1) p0)) p) ps.
Proof.
  intros Ht HC. unfold integration4. apply (run_complete _ _ _ _ (fun st => fst st = Some min_1)); auto.
  intros [a b] i _ E. cbn in E. subst a. unfold p1_step. rewrite Ht. cbn. auto.
Qed.
Lemma creation_schedule value rs min_1 max_1 max_3 ps trace : side_sum rs 4 = CREATION -> complete (length ps) trace ->
  integration4 value rs min_1 max_1 max_3 ps trace =
  map (fun p => 0 + added value (fun p0 => snd (p1_step rs max_3 (Some min_1, Some max_1) p0)) p) ps.
Proof.
  intros Ht HC. unfold integration4. apply (run_complete _ _ _ _ (fun st => True)); auto.
  intros [a b] i _ _. unfold p1_step. rewrite Ht. cbn -[root_or energy].
  destruct (Req_EM_T (masses_of rs 3) 0); [cbn; auto|]. destruct (root_or _ _ _); cbn; auto.
Qed.
(* the lower limit of p1 in a scattering *)
Definition scat_min (rs : nat -> participant) (p0 : R) : R :=
  let e := mass (rs 2%nat) + mass (rs 3%nat) - energy p0 (mass (rs 0%nat)) in
  if Rle_dec e 0 then 0 else if Rle_dec (e ^ 2 - mass (rs 1%nat) ^ 2) 0 then 0 else sqrt (e ^ 2 - mass (rs 1%nat) ^ 2).
Lemma scat_min_root rs p0 : root_or (Some 0) (masses_of rs 2 + masses_of rs 3 - energy p0 (masses_of rs 0)) (masses_of rs 1) = Some (scat_min rs p0).
Proof. unfold root_or, scat_min, masses_of. destruct (Rle_dec _ 0); [reflexivity|]. destruct (Rle_dec _ 0); reflexivity. Qed.
Lemma scattering_schedule value rs min_1 max_1 max_3 ps trace : side_sum rs 4 = SCATTERING ->
  (forall p, In p ps -> 3 * scat_min rs p <= max_1) -> complete (length ps) trace ->
  integration4 value rs min_1 max_1 max_3 ps trace =
  map (fun p => 0 + added value (fun p0 => snd (p1_step rs max_3 (Some min_1, Some max_1) p0)) p) ps.
Proof.
  intros Ht Hmax HC. unfold integration4. apply (run_complete _ _ _ _ (fun st => snd st = Some max_1)); auto.
  intros [a b] i Hi E. cbn in E. subst b. unfold p1_step. rewrite Ht. cbn -[root_or energy]. rewrite scat_min_root.
  pose proof (Hmax (nth i ps 0) (nth_In _ _ Hi)).
  destruct (Rlt_dec (3 * scat_min rs (nth i ps 0)) max_1); cbn; split; auto. f_equal. lra.
Qed.
Lemma schedule3 value rs min_1 max_1 max_2 ps trace : complete (length ps) trace ->
  integration3 value rs min_1 max_1 max_2 ps trace =
  map (fun p => 0 + added value (fun p0 => snd (step3 rs max_2 (min_1, max_1) p0)) p) ps.
Proof.
  intros HC. unfold integration3. apply (run_complete _ _ _ _ (fun st => True)); auto.
  intros [a b] i _ _. split; [|exact I]. unfold step3. destruct (Req_EM_T (nth i ps 0) 0); [reflexivity|].
  unfold p1_step3. destruct (side_sum rs 3 =? CREATION3)%Z; [|reflexivity]. destruct (p1_bounds_4 _ _ _); reflexivity.
Qed.

(* ---------- well-formed limits ---------- *)
Lemma csqrt_num x : 0 <= x -> csqrt x = Some (sqrt x).
Proof. intros. unfold csqrt. destruct (Rlt_dec x 0); [lra|reflexivity]. Qed.
(* both limits are numbers, in order *)
Definition ordered (lo hi : option R) : Prop := exists l h, lo = Some l /\ hi = Some h /\ l <= h.

Lemma decay_limits rs st lim2 max_3 p0 : masses_ok rs -> sides_are rs (-1) 1 1 1 ->
  mass (rs 1%nat) + mass (rs 2%nat) + mass (rs 3%nat) <= mass (rs 0%nat) -> 0 <= p0 -> fst st = Some 0 ->
  exists lo hi, snd (p1_step rs max_3 st p0) = Some (Some lo, Some hi) /\ lo <= hi /\
  forall p1, lo <= p1 <= hi -> exists l h, p2_limits rs (fst lim2) (snd lim2) max_3 p0 p1 = Some (l, h) /\ ordered l h.
Proof.
  intros Hm Hs Hth H0 Hst. unfold p1_step, p2_limits. rewrite (side_sum4 _ _ _ _ _ Hs). destruct st as [a b]. cbn [fst] in Hst. subst a.
  cbn -[energy csqrt pow p2_max_dec]. unfold masses_of, p2_max_dec.
  pose proof (Hm 1%nat). pose proof (Hm 2%nat). pose proof (Hm 3%nat). pose proof (energy_ge_m p0 (mass (rs 0%nat))).
  rewrite csqrt_num by nra. eexists _, _. split; [reflexivity|]. split; [apply sqrt_pos|].
  intros p1 (L & U). eexists _, _. split; [reflexivity|].
  assert (HE : energy p1 (mass (rs 1%nat)) <= energy p0 (mass (rs 0%nat)) - mass (rs 2%nat) - mass (rs 3%nat)).
  { set (X := energy p0 (mass (rs 0%nat)) - mass (rs 2%nat) - mass (rs 3%nat)) in *.
    assert (p1 ^ 2 <= X ^ 2 - mass (rs 1%nat) ^ 2).
    { rewrite <- (pow2_sqrt (X ^ 2 - mass (rs 1%nat) ^ 2)) by (unfold X; nra). apply pow_incr. lra. }
    pose proof (energy_sq p1 (mass (rs 1%nat))). pose proof (energy_nonneg p1 (mass (rs 1%nat))). unfold X in *. nra. }
  rewrite csqrt_num by nra. exists 0. eexists. split; [reflexivity|]. split; [reflexivity|]. apply sqrt_pos.
Qed.

Lemma scat_min_le rs p0 p1 : masses_ok rs -> 0 <= p1 -> scat_min rs p0 <= p1 ->
  mass (rs 2%nat) + mass (rs 3%nat) <= energy p0 (mass (rs 0%nat)) + energy p1 (mass (rs 1%nat)).
Proof.
  intros Hm H1 H. unfold scat_min in H. pose proof (energy_nonneg p1 (mass (rs 1%nat))). pose proof (energy_sq p1 (mass (rs 1%nat))).
  set (e := mass (rs 2%nat) + mass (rs 3%nat) - energy p0 (mass (rs 0%nat))) in *.
  enough (e <= energy p1 (mass (rs 1%nat))) by (unfold e in *; lra).
  destruct (Rle_dec e 0); [lra|]. destruct (Rle_dec (e ^ 2 - mass (rs 1%nat) ^ 2) 0) as [L|L].
  - pose proof (pow2_ge_0 p1). nra.
  - assert (sqrt (e ^ 2 - mass (rs 1%nat) ^ 2) ^ 2 <= p1 ^ 2) by (apply pow_incr; split; [apply sqrt_pos|exact H]).
    rewrite pow2_sqrt in * by lra. nra.
Qed.
Lemma scattering_limits rs st lim2 max_1 max_3 p0 : masses_ok rs -> sides_are rs (-1) (-1) 1 1 -> 0 <= p0 -> snd st = Some max_1 ->
  p0 <> 0 \/ mass (rs 0%nat) <> 0 ->
  exists lo hi, snd (p1_step rs max_3 st p0) = Some (Some lo, Some hi) /\ 0 <= lo <= hi /\
  forall p1, lo <= p1 -> exists l h, p2_limits rs (fst lim2) (snd lim2) max_3 p0 p1 = Some (l, h) /\ ordered l h.
Proof.
  intros Hm Hs H0 Hst Hpos. unfold p1_step, p2_limits. rewrite (side_sum4 _ _ _ _ _ Hs). destruct st as [a b]. cbn [snd] in Hst. subst b.
  cbn -[energy csqrt pow root_or p2_min_scat p2_max_scat]. rewrite scat_min_root.
  assert (HL : 0 <= scat_min rs p0) by (unfold scat_min; repeat destruct (Rle_dec _ 0); try lra; apply sqrt_pos).
  assert (G : forall p1, scat_min rs p0 <= p1 -> exists l h, Some (p2_min_scat (masses_of rs) p0 p1, p2_max_scat (masses_of rs) p0 p1) = Some (l, h) /\ ordered l h).
  { intros p1 HL1. eexists _, _. split; [reflexivity|]. assert (H1 : 0 <= p1) by lra.
    pose proof (scat_min_le rs p0 p1 Hm H1 HL1) as HTH. unfold p2_min_scat, p2_max_scat, masses_of.
    pose proof (Hm 0%nat) as M0. pose proof (Hm 1%nat) as M1. pose proof (Hm 2%nat) as M2. pose proof (Hm 3%nat) as M3.
    destruct (Req_EM_T p0 0) as [->|Np].
    - destruct (Req_EM_T (mass (rs 0%nat)) 0) as [Z0|NZ0]; [destruct Hpos; contradiction|].
      rewrite energy_rest in HTH by auto.
      destruct (all_zero _ _ _); [exists (mass (rs 0%nat) / 2), ((mass (rs 0%nat) + 2 * p1) / 2); repeat split; lra|].
      destruct (Rlt_dec _ _) as [Hlt|Hge].
      + pose proof (energy_sq p1 (mass (rs 1%nat))) as Q1. pose proof (energy_ge p1 (mass (rs 1%nat)) H1) as Q2. pose proof (energy_ge_m p1 (mass (rs 1%nat))) as Q3.
        assert (HEsq : mass (rs 0%nat) + sqrt (mass (rs 1%nat) ^ 2 + p1 ^ 2) = mass (rs 0%nat) + energy p1 (mass (rs 1%nat))).
        { unfold energy. now rewrite (Rplus_comm (p1 ^ 2)). }
        unfold scat_root. cbv zeta. rewrite HEsq. set (E := mass (rs 0%nat) + energy p1 (mass (rs 1%nat))) in *.
        assert (P0 : 0 < mass (rs 0%nat)) by lra.
        assert (HS : (mass (rs 0%nat) + mass (rs 1%nat)) ^ 2 <= E ^ 2 - p1 ^ 2) by (unfold E; nra).
        assert (HS2 : (mass (rs 2%nat) + mass (rs 3%nat)) ^ 2 <= E ^ 2 - p1 ^ 2) by nra.
        set (s := E ^ 2 - p1 ^ 2) in *.
        assert (HLam : 0 <= (s + mass (rs 2%nat) ^ 2 - mass (rs 3%nat) ^ 2) ^ 2 - 4 * s * mass (rs 2%nat) ^ 2).
        { replace ((s + mass (rs 2%nat) ^ 2 - mass (rs 3%nat) ^ 2) ^ 2 - 4 * s * mass (rs 2%nat) ^ 2)
            with ((s - (mass (rs 2%nat) + mass (rs 3%nat)) ^ 2) * (s - (mass (rs 2%nat) - mass (rs 3%nat)) ^ 2)) by ring.
          apply Rmult_le_pos; [lra|]. nra. }
        match goal with |- context [csqrt ?x] => replace x with (E ^ 2 * ((s + mass (rs 2%nat) ^ 2 - mass (rs 3%nat) ^ 2) ^ 2 - 4 * s * mass (rs 2%nat) ^ 2)) by (unfold s; ring) end.
        rewrite csqrt_num by (apply Rmult_le_pos; [apply pow2_ge_0|exact HLam]). cbn [option_map omax0].
        eexists _, _. split; [reflexivity|]. split; [reflexivity|]. apply Rle_max_compat_r.
        apply Rmult_le_compat_r; [left; apply Rinv_0_lt_compat; nra|].
        assert (0 <= s + mass (rs 2%nat) ^ 2 - mass (rs 3%nat) ^ 2) by nra. unfold s in *. nra.
      + rewrite csqrt_num; [exists 0; eexists; split; [reflexivity|]; split; [reflexivity|]; apply sqrt_pos|].
        nra.
    - rewrite csqrt_num; [exists 0; eexists; split; [reflexivity|]; split; [reflexivity|]; apply sqrt_pos|]. nra. }
  destruct (Rlt_dec (3 * scat_min rs p0) max_1); eexists _, _; (split; [reflexivity|]); (split; [lra|]); exact G.
Qed.
