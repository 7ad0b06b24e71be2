(* Lemmas linking rec_jacobi, jacobi, jacobiD and polyval of common/orthopoly.py
   to the monic Jacobi polynomials. *)
From Coq Require Import Reals Psatz.
From Coquelicot Require Import Coquelicot.
From Verif Require Import Base OrthoModel OrthoSpec OrthoProofs OrthoGaussProofs OrthoJacobiProofs
  OrthoIntegralProofs.
Open Scope R_scope.
Local Notation length := List.length.

(* ---- rec_jacobi ---- *)
Lemma el_map_seq (f : nat -> R) i n k : (k < n)%nat -> el (map f (seq i n)) k = f (i + k)%nat.
Proof.
  intros H. unfold el. rewrite (nth_indep _ 0 (f O)) by (now rewrite map_length, seq_length).
  rewrite map_nth, seq_nth by assumption. reflexivity.
Qed.
Definition jmu (gamma power2 : R -> R) (A B : R) : R :=
  power2 (A + B + 1) * gamma (A + 1) * gamma (B + 1) / gamma (A + B + 2).

Lemma rec_jacobi_ok gamma power2 N A B :
  -1 < A -> -1 < B -> (2 <= N)%nat ->
  exists alpha beta, rec_jacobi gamma power2 (Z.of_nat N) A B = Ok (Arrays alpha beta)
    /\ length alpha = N /\ length beta = N
    /\ (forall k, (k < N)%nat -> el alpha k = jal A B k)
    /\ (forall k, (k < N)%nat -> el beta k = jbe (jmu gamma power2 A B) A B k).
Proof.
  intros HA HB HN. unfold rec_jacobi.
  destruct (Req_EM_T (A + B + 2) 0); [lra|].
  destruct (Z.eqb_spec (Z.of_nat N) 1); [lia|].
  destruct (Req_EM_T ((A + B + 2) ^ 2 * (A + B + 3)) 0) as [E|_].
  { exfalso. apply Rmult_integral in E as [E|E]; [|lra].
    assert (0 < (A + B + 2) ^ 2) by (apply pow_lt; lra). lra. }
  destruct N as [|[|N]]; [lia|lia|].
  unfold arange1. replace (Z.to_nat (Z.of_nat (S (S N)) - 1)) with (S N) by lia.
  eexists _, _. split; [reflexivity|].
  change (tl (map INR (seq 1 (S N)))) with (map INR (seq 2 N)).
  rewrite !map_map.
  split; [simpl length; now rewrite map_length, seq_length|].
  split; [simpl length; now rewrite map_length, seq_length|].
  split.
  - intros [|k] Hk; [reflexivity|]. unfold el at 1. cbn [nth].
    change (nth k ?l 0) with (el l k).
    rewrite (el_map_seq (fun x => _)) by lia. reflexivity.
  - intros [|[|k]] Hk; [reflexivity|reflexivity|]. unfold el at 1. cbn [nth].
    change (nth k ?l 0) with (el l k).
    rewrite (el_map_seq (fun x => _)) by lia. reflexivity.
Qed.

Lemma coefficients_ext L a b a' b' n : functional L ->
  (forall k, (k < n)%nat -> a k = a' k) -> (forall k, (k < n)%nat -> b k = b' k) -> (0 < n)%nat ->
  coefficients_of L a' b' n -> coefficients_of L a b n.
Proof.
  intros HL Ha Hb Hn (H0 & HO). split; [now rewrite Hb|].
  intros k l Hkl. rewrite <- (HO k l Hkl). apply HL. intros x.
  rewrite !(monic_ext a b a' b' n); auto; try lia; intros; apply Hb; lia.
Qed.

Lemma jbe_pos mu A B : -1 < A -> -1 < B -> 0 < mu -> forall k, 0 < jbe mu A B k.
Proof.
  intros HA HB Hm [|[|k]]; unfold jbe; [assumption| |].
  - apply Rdiv_lt_0_compat; [nra|]. apply Rmult_lt_0_compat; [apply pow_lt; lra|lra].
  - assert (2 <= INR (S (S k))) by (rewrite !S_INR; pose proof (pos_INR k); lra).
    set (n := INR (S (S k))) in *.
    apply Rdiv_lt_0_compat.
    + repeat apply Rmult_lt_0_compat; lra.
    + apply Rmult_lt_0_compat; [apply Rmult_lt_0_compat|]; [apply pow_lt|..]; lra.
Qed.

(* ---- [0,1] ---- *)
Definition weight01 (a b : nat) (t : R) : R := (1 - t) ^ a * t ^ b.
Definition jint01 (a b : nat) (f : R -> R) : R := RInt (fun t => f t * weight01 a b t) 0 1.
Lemma continuous_weight01 a b (x : R) : continuous (weight01 a b) x.
Proof. apply (ex_derive_continuous (weight01 a b)). unfold weight01. auto_derive; auto. Qed.
Lemma ex_jint01 a b f : polynomial f -> ex_RInt (fun x => f x * weight01 a b x) 0 1.
Proof.
  intros H. apply @ex_RInt_continuous. intros z _.
  apply (continuous_mult f (weight01 a b)); [now apply continuous_polynomial|apply continuous_weight01].
Qed.
Lemma jint01_functional a b : functional (jint01 a b).
Proof.
  split; unfold jint01.
  - intros f g E. apply RInt_ext. intros x _. now rewrite E.
  - intros f g u v Hf Hg.
    rewrite (RInt_ext _ (fun x => plus (scal u (f x * weight01 a b x)) (scal v (g x * weight01 a b x)))).
    + rewrite (RInt_plus (fun x => scal u (f x * weight01 a b x)) (fun x => scal v (g x * weight01 a b x))).
      * rewrite (RInt_scal (fun x => f x * weight01 a b x)), (RInt_scal (fun x => g x * weight01 a b x))
          by (now apply ex_jint01). reflexivity.
      * apply @ex_RInt_scal. now apply ex_jint01.
      * apply @ex_RInt_scal. now apply ex_jint01.
    + intros x _. unfold plus, scal; simpl; unfold mult; simpl.
      match goal with |- ?p = ?q => change (@eq R p q) end. ring.
Qed.

Lemma weight_shift a b t : jweight a b (2 * t + -1) = 2 ^ (a + b) * weight01 a b t.
Proof.
  unfold jweight, weight01. replace (1 - (2 * t + -1)) with (2 * (1 - t)) by ring.
  replace (1 + (2 * t + -1)) with (2 * t) by ring. rewrite !Rpow_mult_distr, pow_add. ring.
Qed.

(* f given on [0,1], g the same function of 2t-1 *)
Lemma jint_shift a b f g : polynomial f -> polynomial g -> (forall t, f t = g (2 * t + -1)) ->
  jint a b g = 2 ^ (a + b + 1) * jint01 a b f.
Proof.
  intros Hf Hg E. unfold jint, jint01.
  pose proof (RInt_comp_lin (fun x => g x * jweight a b x) 2 (-1) 0 1) as C.
  replace (2 * 0 + -1) with (-1) in C by ring. replace (2 * 1 + -1) with 1 in C by ring.
  rewrite <- C by (now apply ex_jint).
  rewrite (RInt_ext _ (fun t => scal (2 ^ (a + b + 1)) (f t * weight01 a b t))).
  - rewrite (RInt_scal (fun t => f t * weight01 a b t)) by (now apply ex_jint01). reflexivity.
  - intros t _. rewrite weight_shift, <- E. unfold scal; simpl; unfold mult; simpl.
    match goal with |- ?p = ?q => change (@eq R p q) end. rewrite !pow_add. simpl. ring.
Qed.

Lemma monic_shift a b a' b' :
  (forall k, a' k = (1 + a k) / 2) -> (forall k, (0 < k)%nat -> b' k = b k / 4) ->
  forall k t, 2 ^ k * monic a' b' k t = monic a b k (2 * t + -1).
Proof.
  intros Ha Hb k t. induction k as [k IH] using lt_wf_ind. destruct k as [|[|k]].
  - rewrite !monic_0. simpl. ring.
  - rewrite !monic_1, Ha. simpl. field.
  - rewrite !monic_SS, Ha, Hb by lia. rewrite <- !IH by lia. simpl pow. field.
Qed.

Lemma coefficients01 a b n a' b' mu :
  (forall k, a' k = (1 + jal (INR a) (INR b) k) / 2) ->
  (forall k, (0 < k)%nat -> b' k = jbe mu (INR a) (INR b) k / 4) ->
  b' O = jint a b (fun _ => 1) / 2 ^ (a + b + 1) ->
  coefficients_of (jint01 a b) a' b' n.
Proof.
  intros Ha Hb H0.
  assert (P2 : forall k, 2 ^ k <> 0) by (intros; apply pow_nonzero; lra).
  split.
  - rewrite H0. rewrite (jint_shift a b (fun _ => 1) (fun _ => 1)) by (auto using polynomial_const).
    field. apply P2.
  - intros k l Hkl.
    pose proof (monic_shift _ _ _ _ Ha Hb) as MS.
    pose proof (orthogonal a b mu k l ltac:(lia)) as O.
    rewrite (jint_shift a b (fun t => (2 ^ k * 2 ^ l) * (monic a' b' k t * monic a' b' l t))) in O.
    + rewrite (functional_scal _ (fun t => monic a' b' k t * monic a' b' l t) (2 ^ k * 2 ^ l)
                 (jint01_functional a b)) in O
        by (apply polynomial_mult; apply polynomial_monic).
      apply (Rmult_eq_reg_l (2 ^ (a + b + 1) * (2 ^ k * 2 ^ l))).
      * rewrite Rmult_0_r, <- O. ring.
      * repeat apply Rmult_integral_contrapositive_currified; apply P2.
    + apply (polynomial_mult (fun _ => 2 ^ k * 2 ^ l)); [apply polynomial_const|].
      apply polynomial_mult; apply polynomial_monic.
    + apply polynomial_mult; apply polynomial_monic.
    + intros t. rewrite <- !MS. ring.
Qed.

(* ---- jacobi ---- *)
Fixpoint lead (A B : R) (k : nat) : R :=
  match k with
  | O => 1
  | S O => (A + B + 2) / 2
  | S j => let n := INR k in
           lead A B j * ((2 * n + A + B - 1) * (2 * n + A + B)) / (2 * n * (n + A + B))
  end.
Lemma lead_SS A B k : lead A B (S (S k))
  = lead A B (S k) * ((2 * INR (S (S k)) + A + B - 1) * (2 * INR (S (S k)) + A + B))
    / (2 * INR (S (S k)) * (INR (S (S k)) + A + B)).
Proof. reflexivity. Qed.
Lemma lead_pos A B k : -1 < A -> -1 < B -> 0 < lead A B k.
Proof.
  intros HA HB. induction k as [k IH] using lt_wf_ind. destruct k as [|[|k]].
  - simpl. lra.
  - simpl. lra.
  - rewrite lead_SS. specialize (IH (S k) ltac:(lia)).
    assert (2 <= INR (S (S k))) by (rewrite !S_INR; pose proof (pos_INR k); lra).
    set (n := INR (S (S k))) in *.
    apply Rdiv_lt_0_compat; repeat apply Rmult_lt_0_compat; try lra; assumption.
Qed.

Definition jpoly (A B : R) (k : nat) (x : R) : R := lead A B k * monic (jal A B) (jbe 1 A B) k x.

Lemma jacobi_next_ok A B x k : -1 < A -> -1 < B ->
  jacobi_next A B x (INR (S (S k))) (jpoly A B (S k) x) (jpoly A B k x) = jpoly A B (S (S k)) x.
Proof.
  intros HA HB. unfold jpoly. rewrite monic_SS, lead_SS.
  destruct k as [|k].
  - rewrite monic_1, monic_0. unfold jacobi_next, jal, jbe, lead. simpl INR. field.
    repeat split; lra.
  - rewrite lead_SS.
    set (P2 := monic (jal A B) (jbe 1 A B) (S (S k)) x). set (P1 := monic (jal A B) (jbe 1 A B) (S k) x).
    set (c := lead A B (S k)).
    unfold jacobi_next, jal, jbe. rewrite !(S_INR (S (S k))), !(S_INR (S k)).
    pose proof (INR_ge1 k) as HK. set (K := INR (S k)) in *. clearbody K P1 P2 c.
    field. repeat split; lra.
Qed.

Lemma jacobi_loop_el A B x : -1 < A -> -1 < B -> forall n k j, (j < n)%nat ->
  el (jacobi_loop A B x (S (S k)) n (jpoly A B (S k) x) (jpoly A B k x)) j
  = jpoly A B (S (S k) + j) x.
Proof.
  intros HA HB. induction n as [|n IH]; intros k j Hj; [lia|].
  cbn [jacobi_loop]. rewrite jacobi_next_ok by assumption. destruct j as [|j].
  - rewrite Nat.add_0_r. reflexivity.
  - unfold el. cbn [nth]. change (nth j ?l 0) with (el l j). rewrite IH by lia.
    f_equal. lia.
Qed.
Lemma jacobi_loop_length A B x n k p q : length (jacobi_loop A B x k n p q) = n.
Proof. revert k p q. induction n as [|n IH]; intros; [reflexivity|]. simpl. now rewrite IH. Qed.
Lemma jacobi_row_length N A B x : length (jacobi_row N A B x) = S N.
Proof. destruct N; [reflexivity|]. simpl. now rewrite jacobi_loop_length. Qed.
Lemma jpoly_0 A B x : jpoly A B 0 x = 1.
Proof. unfold jpoly. simpl lead. rewrite monic_0. ring. Qed.
Lemma jpoly_1 A B x : -1 < A -> -1 < B -> jpoly A B 1 x = / 2 * (A - B + (A + B + 2) * x).
Proof. intros. unfold jpoly. simpl lead. rewrite monic_1. unfold jal. field. lra. Qed.
Lemma jacobi_row_el N A B x k : -1 < A -> -1 < B -> (k <= N)%nat ->
  el (jacobi_row N A B x) k = jpoly A B k x.
Proof.
  intros HA HB Hk. destruct N as [|N].
  - assert (k = O) by lia. subst. rewrite jpoly_0. reflexivity.
  - unfold jacobi_row. rewrite <- (jpoly_1 A B x HA HB).
    destruct k as [|[|k]]; [now rewrite jpoly_0|reflexivity|].
    unfold el. cbn [nth]. change (nth k ?l 0) with (el l k).
    rewrite <- (jpoly_0 A B x).
    rewrite (jacobi_loop_el A B x HA HB) by lia. reflexivity.
Qed.

(* derivative: parameters go up by one, degree down by one *)
Lemma dmonic_up A B x k : -1 < A -> -1 < B ->
  dmonic (jal A B) (jbe 1 A B) (S k) x
  = INR (S k) * monic (jal (A + 1) (B + 1)) (jbe 1 (A + 1) (B + 1)) k x.
Proof.
  intros HA HB. induction k as [k IH] using lt_wf_ind. destruct k as [|[|k]].
  - rewrite dmonic_1, monic_0. simpl. ring.
  - rewrite dmonic_SS, dmonic_0, dmonic_1, !monic_1. unfold jal. simpl INR. field. lra.
  - pose proof (IH (S k) ltac:(lia)) as I1. pose proof (IH k ltac:(lia)) as I0.
    pose proof (lowering 1 A B HA HB x (S k)) as Lo.
    pose proof (INR_ge1 k) as HK.
    assert (Pb : 0 < jbe 1 A B (S (S k))) by (apply jbe_pos; lra).
    rewrite dmonic_SS, (monic_SS (jal (A + 1) (B + 1))).
    (* everything through dmonic (S (S k)) and monic (S (S k)) *)
    assert (E0 : dmonic (jal A B) (jbe 1 A B) (S k) x
       = (INR (S (S k)) + (A + B))
         * ((x + (A - B) / (2 * INR (S (S k)) + (A + B))) * dmonic (jal A B) (jbe 1 A B) (S (S k)) x
            - INR (S (S k)) * monic (jal A B) (jbe 1 A B) (S (S k)) x)
         / ((2 * INR (S (S k)) + (A + B) + 1) * jbe 1 A B (S (S k)))).
    { rewrite <- Lo. field. split; [lra|]. rewrite (S_INR (S k)). lra. }
    assert (M1 : monic (jal (A + 1) (B + 1)) (jbe 1 (A + 1) (B + 1)) (S k) x
                 = dmonic (jal A B) (jbe 1 A B) (S (S k)) x / INR (S (S k))).
    { rewrite I1. field. apply not_0_INR. lia. }
    assert (M0 : monic (jal (A + 1) (B + 1)) (jbe 1 (A + 1) (B + 1)) k x
                 = dmonic (jal A B) (jbe 1 A B) (S k) x / INR (S k)).
    { rewrite I0. field. apply not_0_INR. lia. }
    rewrite M1, M0, E0. clear M1 M0 I1 I0 Lo IH E0.
    set (P := monic (jal A B) (jbe 1 A B) (S (S k)) x).
    set (D := dmonic (jal A B) (jbe 1 A B) (S (S k)) x).
    assert (Bk : jbe 1 A B (S (S k)) = 4 * (INR (S k) + 1 + A) * (INR (S k) + 1 + B) * (INR (S k) + 1) * (INR (S k) + 1 + A + B)
       / ((2 * (INR (S k) + 1) + A + B) ^ 2 * (2 * (INR (S k) + 1) + A + B + 1) * (2 * (INR (S k) + 1) + A + B - 1))).
    { unfold jbe. rewrite (S_INR (S k)). reflexivity. }
    assert (Bu : jbe 1 (A + 1) (B + 1) (S k)
      = jbe 1 A B (S (S k)) * (INR (S k) * (INR (S k) + 2 + A + B)) / ((INR (S k) + 1) * (INR (S k) + 1 + A + B))).
    { rewrite Bk. destruct k as [|k].
      - unfold jbe. simpl INR. field. repeat split; lra.
      - unfold jbe. set (K := INR (S (S k))) in *. field. repeat split; lra. }
    rewrite Bu. set (be := jbe 1 A B (S (S k))) in *.
    unfold jal. rewrite !(S_INR (S (S k))), !(S_INR (S k)).
    set (K := INR (S k)) in *. clearbody K P D be. clear Bk Bu.
    field. repeat split; lra.
Qed.

Lemma lead_up A B k : -1 < A -> -1 < B ->
  / 2 * (A + B + 2 + INR k) * lead (A + 1) (B + 1) k = INR (S k) * lead A B (S k).
Proof.
  intros HA HB. induction k as [|k IH].
  - simpl. field.
  - rewrite lead_SS. destruct k as [|k].
    + simpl INR. unfold lead. simpl INR. field. lra.
    + rewrite lead_SS. set (c := lead (A + 1) (B + 1) (S k)) in *. set (d := lead A B (S (S k))) in *.
      rewrite !(S_INR (S (S k))), !(S_INR (S k)) in *.
      pose proof (INR_ge1 k) as HK. set (K := INR (S k)) in *.
      assert (E : d = / 2 * (A + B + 2 + K) * c / (K + 1)) by (rewrite IH; field; lra).
      rewrite E. clearbody c d K. clear IH E. field. repeat split; lra.
Qed.

Lemma jpoly_derive A B k x : -1 < A -> -1 < B ->
  is_derive (jpoly A B (S k)) x (/ 2 * ((A + B + 2 + INR k) * jpoly (A + 1) (B + 1) k x)).
Proof.
  intros HA HB. unfold jpoly. evar_last.
  - apply @is_derive_scal. apply is_derive_monic.
  - rewrite dmonic_up by assumption. pose proof (lead_up A B k HA HB) as E.
    unfold scal; simpl; unfold mult; simpl.
    match goal with |- ?p = ?q => change (@eq R p q) end.
    change (match k with O => 1 | S _ => INR k + 1 end) with (INR (S k)).
    change (match k with O => (A + B + 2) / 2 | S _ => ?u end) with (lead A B (S k)).
    set (M := monic _ _ k x).
    transitivity ((INR (S k) * lead A B (S k)) * M); [ring|]. rewrite <- E. ring.
Qed.

(* ---- polyval ---- *)
Lemma polyval_loop_el x (a b : nat -> R) : forall n k p1 p2 j,
  p1 = monic a b (S k) x -> p2 = monic a b k x -> (j < n)%nat ->
  el (polyval_loop x (map (fun i => (a i, b i)) (seq (S k) n)) p1 p2) j = monic a b (S (S k) + j) x.
Proof.
  induction n as [|n IH]; intros k p1 p2 j H1 H2 Hj; [lia|].
  cbn [seq map polyval_loop]. subst. rewrite <- monic_SS. destruct j as [|j].
  - now rewrite Nat.add_0_r.
  - unfold el. cbn [nth]. change (nth j ?l 0) with (el l j).
    rewrite IH by (auto; lia). f_equal. lia.
Qed.
Lemma list_as_map (l : list R) : l = map (el l) (seq 0 (length l)).
Proof.
  induction l as [|h t IH]; [reflexivity|]. simpl. f_equal.
  rewrite IH at 1. rewrite <- seq_shift, map_map. reflexivity.
Qed.
Lemma combine_tl a0 ar b0 br : (length ar <= length br)%nat ->
  combine ar br = map (fun i => (el (a0 :: ar) i, el (b0 :: br) i)) (seq 1 (length ar)).
Proof.
  revert a0 b0 br. induction ar as [|a1 ar IH]; intros a0 b0 br H; [reflexivity|].
  destruct br as [|b1 br]; [simpl in H; lia|]. simpl in H.
  cbn [combine length seq map]. f_equal.
  rewrite (IH a1 b1 br) by lia. rewrite <- (seq_shift _ 1), map_map. reflexivity.
Qed.
