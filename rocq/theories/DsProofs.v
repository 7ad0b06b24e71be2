From Coq Require Import Reals Lra Psatz Permutation.
From Coquelicot Require Import Coquelicot.
From Verif Require Import Base DsModel.
Open Scope R_scope.

(* ---------- specification ---------- *)
(* k = |p1 + p2| must be reachable by both pairs *)
Definition klo (q1 q2 q3 q4 : R) : R := Rmax (Rabs (q1 - q2)) (Rabs (q3 - q4)).
Definition khi (q1 q2 q3 q4 : R) : R := Rmin (q1 + q2) (q3 + q4).
Definition kend (q1 q2 q3 q4 : R) : R := Rmax (klo q1 q2 q3 q4) (khi q1 q2 q3 q4).
(* -(p_a . p_b) when |p_a + p_b| = k *)
Definition opp_dot (a b k : R) : R := (a ^ 2 + b ^ 2 - k ^ 2) / 2.

Definition cub (a b k : R) : R := ((a ^ 2 + b ^ 2) * k - k ^ 3 / 3) / 4.
Definition qui (a b c d k : R) : R :=
  ((a ^ 2 + b ^ 2) * (c ^ 2 + d ^ 2) * k - (a ^ 2 + b ^ 2 + c ^ 2 + d ^ 2) * k ^ 3 / 3 + k ^ 5 / 5) / 8.

Lemma int1 lo hi : is_RInt (fun _ => 1 / 2) lo hi ((hi - lo) / 2).
Proof.
  evar_last. apply (is_RInt_const lo hi (1/2)). unfold scal. simpl. unfold mult. simpl. field.
Qed.
Lemma int2 a b lo hi : is_RInt (fun k => 1 / 2 * opp_dot a b k) lo hi (cub a b hi - cub a b lo).
Proof.
  apply (is_RInt_derive (cub a b) (fun k => 1 / 2 * opp_dot a b k)).
  - intros x _. unfold cub, opp_dot. auto_derive; [trivial|]. field.
  - intros x _. unfold opp_dot. apply (ex_derive_continuous (fun k => 1 / 2 * ((a ^ 2 + b ^ 2 - k ^ 2) / 2))). auto_derive. trivial.
Qed.
Lemma int3 a b c d lo hi : is_RInt (fun k => 1 / 2 * opp_dot a b k * opp_dot c d k) lo hi (qui a b c d hi - qui a b c d lo).
Proof.
  apply (is_RInt_derive (qui a b c d) (fun k => 1 / 2 * opp_dot a b k * opp_dot c d k)).
  - intros x _. unfold qui, opp_dot. auto_derive; [trivial|]. field.
  - intros x _. unfold opp_dot.
    apply (ex_derive_continuous (fun k => 1 / 2 * ((a ^ 2 + b ^ 2 - k ^ 2) / 2) * ((c ^ 2 + d ^ 2 - k ^ 2) / 2))). auto_derive. trivial.
Qed.

(* ---------- D1 ---------- *)
Ltac abs_all :=
  repeat match goal with
  | |- context [Rabs ?e] => first [ rewrite (Rabs_pos_eq e) by lra | rewrite (Rabs_left1 e) by lra ]
  | H : context [Rabs ?e] |- _ => first [ rewrite (Rabs_pos_eq e) in H by lra | rewrite (Rabs_left1 e) in H by lra ]
  end.
Ltac mm_all :=
  repeat match goal with
  | |- context [Rmax ?a ?b] => first [ rewrite (Rmax_left a b) by lra | rewrite (Rmax_right a b) by lra ]
  | |- context [Rmin ?a ?b] => first [ rewrite (Rmin_left a b) by lra | rewrite (Rmin_right a b) by lra ]
  end.

(* with q1 >= q2, q3 >= q4 there are six regions *)
Lemma regions q1 q2 q3 q4 : 0 <= q2 <= q1 -> 0 <= q4 <= q3 -> forall P : Prop,
  (q2 + q3 + q4 < q1 -> P) -> (q1 + q2 + q4 < q3 -> P) ->
  (q1 <= q2 + q3 + q4 -> q3 <= q1 + q2 + q4 -> q3 + q4 <= q1 + q2 -> q2 + q3 <= q1 + q4 -> P) ->
  (q1 <= q2 + q3 + q4 -> q3 <= q1 + q2 + q4 -> q3 + q4 <= q1 + q2 -> q1 + q4 < q2 + q3 -> P) ->
  (q1 <= q2 + q3 + q4 -> q3 <= q1 + q2 + q4 -> q1 + q2 < q3 + q4 -> q2 + q3 <= q1 + q4 -> P) ->
  (q1 <= q2 + q3 + q4 -> q3 <= q1 + q2 + q4 -> q1 + q2 < q3 + q4 -> q1 + q4 < q2 + q3 -> P) -> P.
Proof.
  intros H1 H2 P A B C D E F.
  destruct (Rlt_dec (q2 + q3 + q4) q1); [auto|]. destruct (Rlt_dec (q1 + q2 + q4) q3); [auto|].
  destruct (Rle_dec (q3 + q4) (q1 + q2)); destruct (Rle_dec (q2 + q3) (q1 + q4)).
  - apply C; lra. - apply D; lra. - apply E; lra. - apply F; lra.
Qed.

Lemma D1_ordered q1 q2 q3 q4 : 0 <= q2 <= q1 -> 0 <= q4 <= q3 ->
  D1 q1 q2 q3 q4 = (kend q1 q2 q3 q4 - klo q1 q2 q3 q4) / 2.
Proof.
  intros H1 H2. unfold D1, kend, klo, khi.
  apply (regions q1 q2 q3 q4 H1 H2); intros; abs_all; mm_all; lra.
Qed.

Lemma D1_swap12 q1 q2 q3 q4 : D1 q1 q2 q3 q4 = D1 q2 q1 q3 q4.
Proof.
  unfold D1.
  replace (q1 + q2 - q3 - q4) with (q2 + q1 - q3 - q4) by ring.
  replace (Rabs (q1 - q2 + q3 - q4)) with (Rabs (q2 - q1 - q3 + q4)) by (rewrite <- (Rabs_Ropp (q1 - q2 + q3 - q4)); f_equal; ring).
  replace (Rabs (q1 - q2 - q3 + q4)) with (Rabs (q2 - q1 + q3 - q4)) by (rewrite <- (Rabs_Ropp (q1 - q2 - q3 + q4)); f_equal; ring).
  replace (q1 + q2 + q3 - q4) with (q2 + q1 + q3 - q4) by ring. replace (q1 + q2 - q3 + q4) with (q2 + q1 - q3 + q4) by ring.
  replace (q1 - q2 + q3 + q4) with (- q2 + q1 + q3 + q4) by ring. replace (- q1 + q2 + q3 + q4) with (q2 - q1 + q3 + q4) by ring.
  replace (q1 + q2 + q3 + q4) with (q2 + q1 + q3 + q4) by ring. ring.
Qed.
Lemma D1_swap23 q1 q2 q3 q4 : D1 q1 q2 q3 q4 = D1 q1 q3 q2 q4.
Proof.
  unfold D1.
  replace (q1 + q3 - q2 - q4) with (q1 - q2 + q3 - q4) by ring. replace (q1 - q3 + q2 - q4) with (q1 + q2 - q3 - q4) by ring.
  replace (q1 + q3 + q2 - q4) with (q1 + q2 + q3 - q4) by ring. replace (q1 - q3 - q2 + q4) with (q1 - q2 - q3 + q4) by ring.
  replace (q1 + q3 - q2 + q4) with (q1 - q2 + q3 + q4) by ring. replace (q1 - q3 + q2 + q4) with (q1 + q2 - q3 + q4) by ring.
  replace (- q1 + q3 + q2 + q4) with (- q1 + q2 + q3 + q4) by ring. replace (q1 + q3 + q2 + q4) with (q1 + q2 + q3 + q4) by ring.
  ring.
Qed.
Lemma D1_swap34 q1 q2 q3 q4 : D1 q1 q2 q3 q4 = D1 q1 q2 q4 q3.
Proof.
  unfold D1.
  replace (q1 + q2 - q4 - q3) with (q1 + q2 - q3 - q4) by ring. replace (q1 - q2 + q4 - q3) with (q1 - q2 - q3 + q4) by ring.
  replace (q1 + q2 + q4 - q3) with (q1 + q2 - q3 + q4) by ring. replace (q1 - q2 - q4 + q3) with (q1 - q2 + q3 - q4) by ring.
  replace (q1 + q2 - q4 + q3) with (q1 + q2 + q3 - q4) by ring. replace (q1 - q2 + q4 + q3) with (q1 - q2 + q3 + q4) by ring.
  replace (- q1 + q2 + q4 + q3) with (- q1 + q2 + q3 + q4) by ring. replace (q1 + q2 + q4 + q3) with (q1 + q2 + q3 + q4) by ring.
  ring.
Qed.

Lemma k_swap12 q1 q2 q3 q4 : klo q1 q2 q3 q4 = klo q2 q1 q3 q4 /\ khi q1 q2 q3 q4 = khi q2 q1 q3 q4 /\ kend q1 q2 q3 q4 = kend q2 q1 q3 q4.
Proof.
  assert (A : klo q1 q2 q3 q4 = klo q2 q1 q3 q4) by (unfold klo; now rewrite Rabs_minus_sym).
  assert (B : khi q1 q2 q3 q4 = khi q2 q1 q3 q4) by (unfold khi; now rewrite Rplus_comm).
  unfold kend. now rewrite A, B.
Qed.
Lemma k_swap34 q1 q2 q3 q4 : klo q1 q2 q3 q4 = klo q1 q2 q4 q3 /\ khi q1 q2 q3 q4 = khi q1 q2 q4 q3 /\ kend q1 q2 q3 q4 = kend q1 q2 q4 q3.
Proof.
  assert (A : klo q1 q2 q3 q4 = klo q1 q2 q4 q3) by (unfold klo; now rewrite (Rabs_minus_sym q3)).
  assert (B : khi q1 q2 q3 q4 = khi q1 q2 q4 q3) by (unfold khi; now rewrite (Rplus_comm q3)).
  unfold kend. now rewrite A, B.
Qed.
Lemma k_pairs q1 q2 q3 q4 : klo q1 q2 q3 q4 = klo q3 q4 q1 q2 /\ khi q1 q2 q3 q4 = khi q3 q4 q1 q2 /\ kend q1 q2 q3 q4 = kend q3 q4 q1 q2.
Proof.
  assert (A : klo q1 q2 q3 q4 = klo q3 q4 q1 q2) by (unfold klo; now rewrite Rmax_comm).
  assert (B : khi q1 q2 q3 q4 = khi q3 q4 q1 q2) by (unfold khi; now rewrite Rmin_comm).
  unfold kend. now rewrite A, B.
Qed.

Lemma D1_value q1 q2 q3 q4 : 0 <= q1 -> 0 <= q2 -> 0 <= q3 -> 0 <= q4 ->
  D1 q1 q2 q3 q4 = (kend q1 q2 q3 q4 - klo q1 q2 q3 q4) / 2.
Proof.
  intros. destruct (Rle_dec q2 q1); destruct (Rle_dec q4 q3).
  - apply D1_ordered; lra.
  - rewrite D1_swap34. destruct (k_swap34 q1 q2 q3 q4) as (-> & _ & ->). apply D1_ordered; lra.
  - rewrite D1_swap12. destruct (k_swap12 q1 q2 q3 q4) as (-> & _ & ->). apply D1_ordered; lra.
  - rewrite D1_swap12, D1_swap34. destruct (k_swap12 q1 q2 q3 q4) as (-> & _ & ->). destruct (k_swap34 q2 q1 q3 q4) as (-> & _ & ->).
    apply D1_ordered; lra.
Qed.

(* ---------- D2 ---------- *)
Lemma sgn_sq e : e ^ 2 * sgn e = e * Rabs e.
Proof.
  unfold sgn, Rabs. destruct (Rlt_dec 0 e); destruct (Rlt_dec e 0); destruct (Rcase_abs e); try lra; try nra.
Qed.
Lemma sgn_sq_neg e e' : e = - e' -> e ^ 2 * sgn e' = - e * Rabs e'.
Proof. intros ->. replace ((- e') ^ 2) with (e' ^ 2) by ring. rewrite sgn_sq. ring. Qed.

Lemma D2_ordered q1 q2 q3 q4 : 0 <= q2 <= q1 -> 0 <= q4 <= q3 ->
  D2_body q1 q2 q3 q4 = cub q3 q4 (kend q1 q2 q3 q4) - cub q3 q4 (klo q1 q2 q3 q4).
Proof.
  intros H1 H2. unfold D2_body, kend, klo, khi, cub. rewrite !sgn_sq.
  rewrite (sgn_sq_neg (- q1 + q2 + q3 + q4) (q1 - q2 - q3 - q4)) by ring.
  apply (regions q1 q2 q3 q4 H1 H2); intros; abs_all; mm_all; field.
Qed.

Lemma swapped_cases body (P : R -> Prop) q1 q2 q3 q4 :
  0 <= q1 -> 0 <= q2 -> 0 <= q3 -> 0 <= q4 ->
  (0 <= q2 <= q1 -> 0 <= q4 <= q3 -> P (body q1 q2 q3 q4)) ->
  (0 <= q1 <= q2 -> 0 <= q4 <= q3 -> P (body q2 q1 q3 q4)) ->
  (0 <= q2 <= q1 -> 0 <= q3 <= q4 -> P (body q1 q2 q4 q3)) ->
  (0 <= q1 <= q2 -> 0 <= q3 <= q4 -> P (body q2 q1 q4 q3)) -> P (swapped body q1 q2 q3 q4).
Proof.
  intros P1 P2 P3 P4 A B C D. unfold swapped. destruct (Rlt_dec q1 q2); destruct (Rlt_dec q3 q4).
  - apply D; lra. - apply B; lra. - apply C; lra. - apply A; lra.
Qed.

Lemma D2_value q1 q2 q3 q4 : 0 <= q1 -> 0 <= q2 -> 0 <= q3 -> 0 <= q4 ->
  D2 q1 q2 q3 q4 = cub q3 q4 (kend q1 q2 q3 q4) - cub q3 q4 (klo q1 q2 q3 q4).
Proof.
  intros. unfold D2. assert (cub q3 q4 = cub q3 q4) by reflexivity.
  apply (swapped_cases D2_body (fun v => v = cub q3 q4 (kend q1 q2 q3 q4) - cub q3 q4 (klo q1 q2 q3 q4))); auto; intros.
  - now apply D2_ordered.
  - destruct (k_swap12 q1 q2 q3 q4) as (-> & _ & ->). now apply D2_ordered.
  - destruct (k_swap34 q1 q2 q3 q4) as (-> & _ & ->). rewrite D2_ordered by auto. unfold cub. field.
  - destruct (k_swap12 q1 q2 q3 q4) as (-> & _ & ->). destruct (k_swap34 q2 q1 q3 q4) as (-> & _ & ->).
    rewrite D2_ordered by auto. unfold cub. field.
Qed.

(* the piecewise form kept as a comment in Ds.cpp:64-108 *)
Definition D2_doc (q1 q2 q3 q4 : R) : R :=
  if Rlt_dec (q2 + q3 + q4) q1 then 0 else if Rlt_dec (q2 + q1 + q4) q3 then 0 else
  if Rle_dec (q3 + q4) (q1 + q2) then
    if Rle_dec (q2 + q3) (q1 + q4) then
      ((q1 - q2) * ((q1 - q2) ^ 2 - 3 * (q3 ^ 2 + q4 ^ 2)) + 2 * (q3 ^ 3 + q4 ^ 3)) / 12
    else q4 ^ 3 / 3
  else if Rle_dec (q2 + q3) (q1 + q4) then q2 * (3 * (q3 ^ 2 + q4 ^ 2 - q1 ^ 2) - q2 ^ 2) / 6
  else ((q1 + q2) * (3 * (q3 ^ 2 + q4 ^ 2) - (q1 + q2) ^ 2) + 2 * (q4 ^ 3 - q3 ^ 3)) / 12.
Ltac if_all :=
  repeat match goal with
  | |- context [Rlt_dec ?a ?b] => destruct (Rlt_dec a b); try lra
  | |- context [Rle_dec ?a ?b] => destruct (Rle_dec a b); try lra
  end.
Lemma D2_doc_ordered q1 q2 q3 q4 : 0 <= q2 <= q1 -> 0 <= q4 <= q3 -> D2_doc q1 q2 q3 q4 = D2_body q1 q2 q3 q4.
Proof.
  intros H1 H2. rewrite D2_ordered by auto. unfold D2_doc, kend, klo, khi, cub.
  apply (regions q1 q2 q3 q4 H1 H2); intros; abs_all; mm_all; if_all; field.
Qed.

(* ---------- D3 ---------- *)
Lemma D3_ordered q1 q2 q3 q4 : 0 <= q2 <= q1 -> 0 <= q4 <= q3 ->
  D3_body q1 q2 q3 q4 = qui q1 q2 q3 q4 (kend q1 q2 q3 q4) - qui q1 q2 q3 q4 (klo q1 q2 q3 q4).
Proof.
  intros H1 H2. unfold D3_body, kend, klo, khi, qui.
  apply (regions q1 q2 q3 q4 H1 H2); intros; abs_all; mm_all; if_all; field.
Qed.
Lemma D3_value q1 q2 q3 q4 : 0 <= q1 -> 0 <= q2 -> 0 <= q3 -> 0 <= q4 ->
  D3 q1 q2 q3 q4 = qui q1 q2 q3 q4 (kend q1 q2 q3 q4) - qui q1 q2 q3 q4 (klo q1 q2 q3 q4).
Proof.
  intros. unfold D3.
  apply (swapped_cases D3_body (fun v => v = qui q1 q2 q3 q4 (kend q1 q2 q3 q4) - qui q1 q2 q3 q4 (klo q1 q2 q3 q4))); auto; intros.
  - now apply D3_ordered.
  - destruct (k_swap12 q1 q2 q3 q4) as (-> & _ & ->). rewrite D3_ordered by auto. unfold qui. field.
  - destruct (k_swap34 q1 q2 q3 q4) as (-> & _ & ->). rewrite D3_ordered by auto. unfold qui. field.
  - destruct (k_swap12 q1 q2 q3 q4) as (-> & _ & ->). destruct (k_swap34 q2 q1 q3 q4) as (-> & _ & ->).
    rewrite D3_ordered by auto. unfold qui. field.
Qed.

(* ---------- permutations of four ---------- *)
Lemma perm4_ind (P : R -> R -> R -> R -> Prop) :
  (forall a b c d, P a b c d -> P b a c d) -> (forall a b c d, P a b c d -> P a c b d) -> (forall a b c d, P a b c d -> P a b d c) ->
  forall a b c d w x y z, Permutation [a; b; c; d] [w; x; y; z] -> P a b c d -> P w x y z.
Proof.
  intros S1 S2 S3.
  (* last place: three fixed, so the fourth is *)
  assert (E1 : forall a w : R, Permutation [a] [w] -> a = w).
  { intros a w H. apply Permutation_length_1 in H. exact H. }
  assert (E2 : forall u v a b w x, Permutation [a; b] [w; x] -> P u v a b -> P u v w x).
  { intros u v a b w x H HP. apply Permutation_length_2 in H. destruct H as [(-> & ->)|(-> & ->)]; auto. }
  assert (E3 : forall u a b c w x y, Permutation [a; b; c] [w; x; y] -> P u a b c -> P u w x y).
  { intros u a b c w x y H HP.
    assert (HI : In w [a; b; c]) by (eapply Permutation_in; [symmetry; exact H|now left]).
    destruct HI as [<-|[<-|[<-|[]]]].
    - apply (E2 u a b c x y); auto. eapply Permutation_cons_inv; exact H.
    - apply (E2 u b a c x y); auto. eapply Permutation_cons_inv. eapply perm_trans; [apply perm_swap|exact H].
    - apply (E2 u c a b x y); auto. eapply Permutation_cons_inv. eapply perm_trans; [|exact H].
      apply perm_trans with [a; c; b]; [apply perm_swap|]. apply perm_skip, perm_swap. }
  intros a b c d w x y z H HP.
  assert (HI : In w [a; b; c; d]) by (eapply Permutation_in; [symmetry; exact H|now left]).
  destruct HI as [<-|[<-|[<-|[<-|[]]]]].
  - apply (E3 a b c d x y z); auto. eapply Permutation_cons_inv; exact H.
  - apply (E3 b a c d x y z); auto. eapply Permutation_cons_inv. eapply perm_trans; [apply perm_swap|exact H].
  - apply (E3 c a b d x y z); auto. eapply Permutation_cons_inv. eapply perm_trans; [|exact H].
    apply perm_trans with [a; c; b; d]; [apply perm_swap|]. apply perm_skip, perm_swap.
  - apply (E3 d a b c x y z); auto 6. eapply Permutation_cons_inv. eapply perm_trans; [|exact H].
    apply perm_trans with [a; d; b; c]; [apply perm_swap|]. apply perm_skip.
    apply perm_trans with [b; d; c]; [apply perm_swap|]. apply perm_skip, perm_swap.
Qed.

Lemma D1_perm a b c d w x y z : Permutation [a; b; c; d] [w; x; y; z] -> D1 a b c d = D1 w x y z.
Proof.
  intros H. apply (perm4_ind (fun w x y z => D1 a b c d = D1 w x y z)) with (4 := H).
  - intros ? ? ? ? ->; apply D1_swap12.
  - intros ? ? ? ? ->; apply D1_swap23.
  - intros ? ? ? ? ->; apply D1_swap34.
  - reflexivity.
Qed.

(* values on sorted arguments *)
Definition D3_sorted (a b c d : R) : R :=
  if Rlt_dec (b + c + d) a then 0 else
  if Rle_dec (b + c) (a + d) then
    (a ^ 5 - b ^ 5 - c ^ 5 - d ^ 5
       + 5 * (a ^ 2 * b ^ 2 * (b - a)
              + c ^ 2 * (b ^ 3 - a ^ 3 + (b ^ 2 + a ^ 2) * c)
              + d ^ 2 * (b ^ 3 - a ^ 3 + c ^ 3 + (a ^ 2 + b ^ 2 + c ^ 2) * d))) / 60
  else d ^ 3 * (5 * (a ^ 2 + b ^ 2 + c ^ 2) - d ^ 2) / 30.

Ltac d3_leaf :=
  unfold D3, swapped;
  repeat match goal with
  | |- context [if Rlt_dec ?a ?b then (_, _) else _] => destruct (Rlt_dec a b); try lra
  end; cbv iota beta; unfold D3_body, D3_sorted;
  repeat match goal with
  | |- context [if Rlt_dec ?a ?b then _ else _] => destruct (Rlt_dec a b); try lra
  | |- context [if Rle_dec ?a ?b then _ else _] => destruct (Rle_dec a b); try lra
  end; try field.
Lemma D3_sorted_1 a b c d : 0 <= d -> d <= c -> c <= b -> b <= a -> D3 a b c d = D3_sorted a b c d.
Proof. intros H H1 H2 H3. d3_leaf. Qed.
Lemma D3_sorted_2 a b c d : 0 <= d -> d <= c -> c <= b -> b <= a -> D3 a c b d = D3_sorted a b c d.
Proof. intros H H1 H2 H3. d3_leaf. Qed.
Lemma D3_sorted_3 a b c d : 0 <= d -> d <= c -> c <= b -> b <= a -> D3 a d b c = D3_sorted a b c d.
Proof. intros H H1 H2 H3. d3_leaf. Qed.

Lemma D3_swap12 a b c d : 0 <= a -> 0 <= b -> 0 <= c -> 0 <= d -> D3 a b c d = D3 b a c d.
Proof. intros. rewrite !D3_value by auto. destruct (k_swap12 a b c d) as (-> & _ & ->). unfold qui. field. Qed.
Lemma D3_swap34 a b c d : 0 <= a -> 0 <= b -> 0 <= c -> 0 <= d -> D3 a b c d = D3 a b d c.
Proof. intros. rewrite !D3_value by auto. destruct (k_swap34 a b c d) as (-> & _ & ->). unfold qui. field. Qed.
Lemma D3_pairs a b c d : 0 <= a -> 0 <= b -> 0 <= c -> 0 <= d -> D3 a b c d = D3 c d a b.
Proof. intros. rewrite !D3_value by auto. destruct (k_pairs a b c d) as (-> & _ & ->). unfold qui. field. Qed.

Ltac d3_base x y z w :=
  first [ rewrite (D3_sorted_1 x y z w) by lra | rewrite (D3_sorted_2 x z y w) by lra | rewrite (D3_sorted_3 x z w y) by lra ].
Ltac d3_norm x y z w :=
  first [ d3_base x y z w
        | rewrite (D3_swap12 x y z w) by lra; d3_base y x z w
        | rewrite (D3_swap34 x y z w) by lra; d3_base x y w z
        | rewrite (D3_swap12 x y z w), (D3_swap34 y x z w) by lra; d3_base y x w z
        | rewrite (D3_pairs x y z w) by lra; d3_base z w x y
        | rewrite (D3_pairs x y z w), (D3_swap12 z w x y) by lra; d3_base w z x y
        | rewrite (D3_pairs x y z w), (D3_swap34 z w x y) by lra; d3_base z w y x
        | rewrite (D3_pairs x y z w), (D3_swap12 z w x y), (D3_swap34 w z x y) by lra; d3_base w z y x ].

Lemma D3_swap23 a b c d : 0 <= a -> 0 <= b -> 0 <= c -> 0 <= d -> D3 a b c d = D3 a c b d.
Proof.
  intros. destruct (Rle_dec b c).
  - destruct (Rle_dec a d); destruct (Rle_dec a b); destruct (Rle_dec a c); destruct (Rle_dec d b); destruct (Rle_dec d c); try lra;
      d3_norm a b c d; d3_norm a c b d; first [reflexivity | f_equal; lra].
  - destruct (Rle_dec a d); destruct (Rle_dec a b); destruct (Rle_dec a c); destruct (Rle_dec d b); destruct (Rle_dec d c); try lra;
      d3_norm a b c d; d3_norm a c b d; first [reflexivity | f_equal; lra].
Qed.
Lemma D3_perm a b c d w x y z : 0 <= a -> 0 <= b -> 0 <= c -> 0 <= d ->
  Permutation [a; b; c; d] [w; x; y; z] -> D3 a b c d = D3 w x y z.
Proof.
  intros Ha Hb Hc Hd H.
  enough (HH : 0 <= w /\ 0 <= x /\ 0 <= y /\ 0 <= z /\ D3 a b c d = D3 w x y z) by tauto.
  apply (perm4_ind (fun w x y z => 0 <= w /\ 0 <= x /\ 0 <= y /\ 0 <= z /\ D3 a b c d = D3 w x y z)) with (4 := H).
  - intros p q r s (A & B & C & D & E). repeat split; auto. rewrite E. now apply D3_swap12.
  - intros p q r s (A & B & C & D & E). repeat split; auto. rewrite E. now apply D3_swap23.
  - intros p q r s (A & B & C & D & E). repeat split; auto. rewrite E. now apply D3_swap34.
  - repeat split; auto.
Qed.

(* symmetries of D2 *)
Lemma D2_swap12 a b c d : 0 <= a -> 0 <= b -> 0 <= c -> 0 <= d -> D2 a b c d = D2 b a c d.
Proof. intros. rewrite !D2_value by auto. now destruct (k_swap12 a b c d) as (-> & _ & ->). Qed.
Lemma D2_swap34 a b c d : 0 <= a -> 0 <= b -> 0 <= c -> 0 <= d -> D2 a b c d = D2 a b d c.
Proof. intros. rewrite !D2_value by auto. destruct (k_swap34 a b c d) as (-> & _ & ->). unfold cub. field. Qed.

(* ---------- bounds of the dot product on the allowed interval ---------- *)
Lemma opp_dot_bound a b k : 0 <= a -> 0 <= b -> Rabs (a - b) <= k <= a + b -> - (a * b) <= opp_dot a b k <= a * b.
Proof.
  intros Ha Hb (H1 & H2). unfold opp_dot.
  assert (Hk : 0 <= k) by (pose proof (Rabs_pos (a - b)); lra).
  assert ((a - b) ^ 2 <= k ^ 2).
  { rewrite <- (pow2_abs (a - b)). apply pow_incr. split; [apply Rabs_pos|exact H1]. }
  assert (k ^ 2 <= (a + b) ^ 2) by (apply pow_incr; lra). split; nra.
Qed.
Lemma k_in_range q1 q2 q3 q4 k : klo q1 q2 q3 q4 < k < kend q1 q2 q3 q4 ->
  Rabs (q1 - q2) <= k <= q1 + q2 /\ Rabs (q3 - q4) <= k <= q3 + q4.
Proof.
  unfold kend, klo, khi. intros (A & B).
  pose proof (Rmax_l (Rabs (q1 - q2)) (Rabs (q3 - q4))). pose proof (Rmax_r (Rabs (q1 - q2)) (Rabs (q3 - q4))).
  pose proof (Rmin_l (q1 + q2) (q3 + q4)). pose proof (Rmin_r (q1 + q2) (q3 + q4)).
  unfold Rmax at 1 in B. destruct (Rle_dec _ _); lra.
Qed.
Lemma k_order q1 q2 q3 q4 : klo q1 q2 q3 q4 <= kend q1 q2 q3 q4.
Proof. apply Rmax_l. Qed.

(* the K1 part of the kernel as one integral of a product of dot products *)
Lemma K1_integral a b c d Ea Eb Ec Ed s t : 0 <= a -> 0 <= b -> 0 <= c -> 0 <= d ->
  is_RInt (fun k => 1 / 2 * (Ea * Eb + s * opp_dot a b k) * (Ec * Ed + t * opp_dot c d k)) (klo a b c d) (kend a b c d)
    (Ea * Eb * Ec * Ed * D1 a b c d + s * t * D3 a b c d + Ea * Eb * t * D2 a b c d + Ec * Ed * s * D2 c d a b).
Proof.
  intros Ha Hb Hc Hd. rewrite D1_value, D3_value, !D2_value by auto.
  destruct (k_pairs c d a b) as (-> & _ & ->).
  set (lo := klo a b c d). set (hi := kend a b c d).
  apply (is_RInt_ext (fun k => Ea * Eb * Ec * Ed * (1 / 2) + s * t * (1 / 2 * opp_dot a b k * opp_dot c d k)
                               + Ea * Eb * t * (1 / 2 * opp_dot c d k) + Ec * Ed * s * (1 / 2 * opp_dot a b k))).
  { intros x _. match goal with |- @eq _ ?u ?v => change (@eq R u v) end. ring. }
  apply (is_RInt_plus (V := R_NormedModule)). apply (is_RInt_plus (V := R_NormedModule)). apply (is_RInt_plus (V := R_NormedModule)).
  - apply (is_RInt_scal (V := R_NormedModule) (fun _ => 1 / 2)). apply int1.
  - apply (is_RInt_scal (V := R_NormedModule) (fun k => 1 / 2 * opp_dot a b k * opp_dot c d k)). apply int3.
  - apply (is_RInt_scal (V := R_NormedModule) (fun k => 1 / 2 * opp_dot c d k)). apply int2.
  - apply (is_RInt_scal (V := R_NormedModule) (fun k => 1 / 2 * opp_dot a b k)). apply int2.
Qed.

Lemma is_RInt_nonneg f a b v : a <= b -> is_RInt f a b v -> (forall x, a < x < b -> 0 <= f x) -> 0 <= v.
Proof.
  intros Hab HI Hf. rewrite <- (is_RInt_unique _ _ _ _ HI). apply RInt_ge_0; auto. exists v. exact HI.
Qed.

Definition pm1 (z : Z) : Prop := z = 1%Z \/ z = (-1)%Z.
Lemma pm1_mul a b : pm1 a -> pm1 b -> pm1 (a * b).
Proof. unfold pm1. intros [-> | ->] [-> | ->]; auto. Qed.

Lemma K1_nonneg a b c d Ea Eb Ec Ed s t : 0 <= a <= Ea -> 0 <= b <= Eb -> 0 <= c <= Ec -> 0 <= d <= Ed -> pm1 s -> pm1 t ->
  0 <= Ea * Eb * Ec * Ed * D1 a b c d + IZR s * IZR t * D3 a b c d + Ea * Eb * IZR t * D2 a b c d + Ec * Ed * IZR s * D2 c d a b.
Proof.
  intros Ha Hb Hc Hd Hs Ht.
  eapply is_RInt_nonneg; [apply k_order|apply K1_integral; lra|].
  intros k Hk. destruct (k_in_range _ _ _ _ _ Hk) as (B1 & B2).
  pose proof (opp_dot_bound a b k ltac:(lra) ltac:(lra) B1) as O1. pose proof (opp_dot_bound c d k ltac:(lra) ltac:(lra) B2) as O2.
  assert (a * b <= Ea * Eb) by nra. assert (c * d <= Ec * Ed) by nra.
  assert (0 <= Ea * Eb + IZR s * opp_dot a b k) by (destruct Hs as [-> | ->]; lra).
  assert (0 <= Ec * Ed + IZR t * opp_dot c d k) by (destruct Ht as [-> | ->]; lra).
  nra.
Qed.

(* order as a permutation of the four indices *)
Definition is_order (o : nat * nat * nat * nat) : Prop :=
  let '(i, j, k, l) := o in Permutation [i; j; k; l] [0; 1; 2; 3]%nat.
Lemma order_map {A} (g : nat -> A) i j k l : Permutation [i; j; k; l] [0; 1; 2; 3]%nat ->
  Permutation [g 0%nat; g 1%nat; g 2%nat; g 3%nat] [g i; g j; g k; g l].
Proof. intros H. symmetry. exact (Permutation_map g H). Qed.
Lemma order_lt i j k l : Permutation [i; j; k; l] [0; 1; 2; 3]%nat -> (i < 4)%nat /\ (j < 4)%nat /\ (k < 4)%nat /\ (l < 4)%nat.
Proof.
  intros H. assert (HI : forall x, In x [i; j; k; l] -> (x < 4)%nat).
  { intros x Hx. pose proof (Permutation_in _ H Hx) as [<-|[<-|[<-|[<-|[]]]]]; lia. }
  repeat split; apply HI; cbn; auto 6.
Qed.
Lemma prod4_perm a b c d w x y z : Permutation [a; b; c; d] [w; x; y; z] -> a * b * c * d = w * x * y * z.
Proof.
  intros H. apply (perm4_ind (fun w x y z => a * b * c * d = w * x * y * z)) with (4 := H).
  - intros ? ? ? ? ->; ring.
  - intros ? ? ? ? ->; ring.
  - intros ? ? ? ? ->; ring.
  - reflexivity.
Qed.

Lemma Dfun_K1 p E m K1 i j k l sides : is_order (i, j, k, l) -> (forall n, (n < 4)%nat -> 0 <= p n) ->
  Dfun p E m K1 0 (i, j, k, l) sides =
  K1 * (E i * E j * E k * E l * D1 (p i) (p j) (p k) (p l)
        + IZR (sides i * sides j) * IZR (sides k * sides l) * D3 (p i) (p j) (p k) (p l)
        + E i * E j * IZR (sides k * sides l) * D2 (p i) (p j) (p k) (p l)
        + E k * E l * IZR (sides i * sides j) * D2 (p k) (p l) (p i) (p j)).
Proof.
  intros Ho Hp. unfold is_order in Ho. unfold Dfun.
  destruct (Req_EM_T 0 0) as [_|X]; [|congruence].
  rewrite (D1_perm _ _ _ _ _ _ _ _ (order_map p _ _ _ _ Ho)).
  rewrite (D3_perm _ _ _ _ _ _ _ _ (Hp 0%nat ltac:(lia)) (Hp 1%nat ltac:(lia)) (Hp 2%nat ltac:(lia)) (Hp 3%nat ltac:(lia)) (order_map p _ _ _ _ Ho)).
  rewrite (prod4_perm _ _ _ _ _ _ _ _ (order_map E _ _ _ _ Ho)).
  destruct (Req_EM_T K1 0) as [->|_]; [ring|].
  replace (sides i * sides j * sides k * sides l)%Z with (sides i * sides j * (sides k * sides l))%Z by ring.
  rewrite mult_IZR. ring.
Qed.
