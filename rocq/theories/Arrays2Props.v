(* Storage of the append-only tables, and the initial states of ring_deque and
   Throttler (C02, C03, C05, C06, C08, C09). *)
From Verif Require Import Base ArraysModel ArraysProofs ArraysProps.

(* ---------- C02 ---------- *)
(* after appending n rows the storage holds at least n + 2 rows and at most 10
   or one and a half times n + 1: memory is linear and reallocations are rare *)
Lemma grow_bounds (A : Type) (zero : A) (a : darr A) r : (0 <= len a)%Z -> (len a + 2 <= size a)%Z -> size a = Z.of_nat (length (store a)) ->
  (size a = 10 \/ 2 * size a <= 3 * (len a + 1))%Z -> (10 <= size a)%Z ->
  exists a', append_row zero a (Some r) = (a', Ok tt) /\ len a' = (len a + 1)%Z /\ (len a' + 2 <= size a')%Z /\ size a' = Z.of_nat (length (store a')) /\
    (size a' = 10 \/ 2 * size a' <= 3 * (len a' + 1))%Z /\ (10 <= size a')%Z.
Proof.
  intros H0 H2 HS HB HT. unfold append_row.
  assert (G : exists g, grow zero a = g /\ len g = len a /\ (len g + 3 <= size g)%Z /\ size g = Z.of_nat (length (store g)) /\ (size g = 10 \/ 2 * size g <= 3 * (len a + 2))%Z /\ (10 <= size g)%Z).
  { eexists. split; [reflexivity|]. unfold grow. destruct (Z.eqb_spec (len a) (size a)); [lia|]. cbn [orb]. destruct (Z.eqb_spec (len a) (Z.of_nat (length (store a)) - 2)) as [E|N].
    - cbn [len size store]. assert (L : forall n, length (np_resize zero (store a) n) = n). { intros n0. unfold np_resize. destruct (store a) eqn:ES; [now rewrite repeat_length|]. now rewrite map_length, seq_length. }
      rewrite L. assert (D := Z.div_mod (3 * size a) 2 ltac:(lia)). assert (M := Z.mod_pos_bound (3 * size a) 2 ltac:(lia)). rewrite Z2Nat.id by lia. repeat split; try lia.
    - repeat split; try lia. }
  destruct G as (g & EG & LG & LB & SG & BG & TG). rewrite EG. unfold py_index.
  destruct (Z.leb_spec 0 (len g)); [|lia]. destruct (Z.ltb_spec (len g) (Z.of_nat (length (store g)))); [|lia]. cbn [andb].
  eexists. split; [reflexivity|]. cbn [len size store]. rewrite ?set_nth_length. repeat split; try lia.
Qed.
Theorem C02_linear_memory : forall (V : Type) (v0 : V) (columns : list string) rows, Forall (fun r => length r = length columns) rows ->
  exists a, runrec v0 columns (initrec v0 columns) (map (fun r => AppendR (RTuple r)) rows) = (a, Ok tt) /\
    len a = Z.of_nat (length rows) /\ (len a + 2 <= Z.of_nat (length (store a)))%Z /\
    (Z.of_nat (length (store a)) = 10 \/ 2 * Z.of_nat (length (store a)) <= 3 * (len a + 1))%Z.
Proof.
  intros V v0 columns rows HR.
  assert (G : forall rows a, Forall (fun r => length r = length columns) rows -> (0 <= len a)%Z -> (len a + 2 <= size a)%Z -> size a = Z.of_nat (length (store a)) ->
    (size a = 10 \/ 2 * size a <= 3 * (len a + 1))%Z -> (10 <= size a)%Z ->
    exists a', runrec v0 columns a (map (fun r => AppendR (RTuple r)) rows) = (a', Ok tt) /\ len a' = (len a + Z.of_nat (length rows))%Z /\ (len a' + 2 <= size a')%Z /\ size a' = Z.of_nat (length (store a')) /\ (size a' = 10 \/ 2 * size a' <= 3 * (len a' + 1))%Z).
  { induction rows0 as [|r rs IH]; intros a HF H0 H2 HS HB HT.
    - exists a. cbn. repeat split; auto. lia.
    - apply Forall_cons_iff in HF. destruct HF as (Hr & HF). destruct (grow_bounds _ (zerorec v0 columns) a r H0 H2 HS HB HT) as (a1 & E1 & L1 & C1 & S1 & B1 & T1).
      cbn [map runrec steprec appendrec]. rewrite Hr, Nat.eqb_refl, E1. destruct (IH a1 HF ltac:(lia) C1 S1 B1 T1) as (a' & E & L & C & S' & B). exists a'. rewrite E. cbn [length]. repeat split; auto. lia. }
  destruct (G rows (initrec v0 columns) HR) as (a & E & L & C & S' & B); try (cbn; lia). exists a. rewrite E. cbn in L. repeat split; auto; lia.
Qed.
Print Assumptions C02_linear_memory.
(* appending when the counter points outside the storage *)
Theorem C02_outside : forall (A : Type) (zero : A) a row, (len a < - Z.of_nat (length (store a)))%Z -> (0 <= size a)%Z -> store a <> [] -> append_row zero a row = (a, Raise IndexError).
Proof.
  intros A zero a row H HS HN. assert (1 <= Z.of_nat (length (store a)))%Z by (destruct (store a); [congruence|cbn [length]; lia]). unfold append_row. assert (E : grow zero a = a). { unfold grow. destruct (Z.eqb_spec (len a) (size a)); [lia|]. destruct (Z.eqb_spec (len a) (Z.of_nat (length (store a)) - 2)); [lia|reflexivity]. }
  rewrite E. unfold py_index. destruct (Z.leb_spec 0 (len a)); [lia|]. cbn [andb]. destruct (Z.leb_spec (- Z.of_nat (length (store a))) (len a)); [lia|]. reflexivity.
Qed.
Print Assumptions C02_outside.

(* ---------- C03 ---------- *)
Theorem C03_unknown_column : forall (V : Type) (v0 : V) columns int_of_string (a : darr (list V)) s,
  ~ In s columns -> int_of_string s = None -> getitemrec v0 columns int_of_string a (IStr s) = Raise ValueError.
Proof.
  intros V v0 columns ios a s HN HI. unfold getitemrec. assert (E : col_pos columns s = None). { induction columns as [|k r IH]; [reflexivity|]. cbn. destruct (String.eqb_spec k s) as [->|]; [exfalso; apply HN; now left|]. rewrite IH; [reflexivity|]. intros H. apply HN. now right. }
  rewrite E, HI. reflexivity.
Qed.
Print Assumptions C03_unknown_column.

(* ---------- C05 ---------- *)
(* truncation drops the storage row two past the last one; it fails exactly when
   there is no such row *)
Theorem C05_truncate_exact : forall (A : Type) (a : darr A), (0 <= len a)%Z ->
  ((len a + 1 < Z.of_nat (length (store a)))%Z -> exists pre x post, store a = pre ++ x :: post /\ Z.of_nat (length pre) = (len a + 1)%Z /\ truncate a = (mkdarr (len a - 1) (size a) (pre ++ post), Ok tt)) /\
  ((Z.of_nat (length (store a)) <= len a + 1)%Z -> truncate a = (a, Raise IndexError)).
Proof.
  intros A a H0. unfold truncate. split; intros H.
  - rewrite py_index_nonneg by lia. assert (HL : Z.to_nat (len a + 1) < length (store a)) by lia. set (k := Z.to_nat (len a + 1)) in *.
    destruct (nth_error (store a) k) as [x|] eqn:E; [|apply nth_error_None in E; lia]. destruct (nth_error_split _ _ E) as (pre & post & ES & EL).
    exists pre, x, post. split; [exact ES|]. split; [lia|]. rewrite ES, <- EL. f_equal. f_equal. clear. induction pre as [|y pre IH]; [reflexivity|]. cbn. now rewrite IH.
  - unfold py_index. destruct (Z.leb_spec 0 (len a + 1)); [|lia]. destruct (Z.ltb_spec (len a + 1) (Z.of_nat (length (store a)))); [lia|]. cbn [andb].
    destruct (Z.leb_spec (- Z.of_nat (length (store a))) (len a + 1)); destruct (Z.ltb_spec (len a + 1) 0); try lia; reflexivity.
Qed.
Print Assumptions C05_truncate_exact.
(* the dropped row is still there for an index that reads the storage *)
Theorem C05_dropped_row_readable_refuted : forall (V : Type) (v0 v : V) c ios,
  exists a, runrec v0 [c] (initrec v0 [c]) [AppendR (RTuple [v]); TruncateR] = (a, Ok tt) /\ data a = [] /\ getitemrec v0 [c] ios a (IInt 0) = Ok (Row [v]).
Proof. intros. eexists. split; [reflexivity|]. split; reflexivity. Qed.
Print Assumptions C05_dropped_row_readable_refuted.
Example C05_exact_case : (0 <= len (init 0%nat))%Z /\ (len (init 0%nat) + 1 < Z.of_nat (length (store (init 0%nat))))%Z.
Proof. cbn. lia. Qed.

(* ---------- C06 ---------- *)
Theorem C06_unknown_universe : forall (V : Type) (v0 : V) columns p u row, alive p <= u -> ustep v0 columns p (SaveParams u row) = Raise NameError.
Proof. intros. unfold ustep. destruct (Nat.ltb_spec u (alive p)); [lia|reflexivity]. Qed.
Print Assumptions C06_unknown_universe.

(* ---------- C08, C09 ---------- *)
(* before the first value the extremes are zero, afterwards they do not depend
   on that *)
Theorem C08_fresh : forall d n x xs, rmax (ring_init d n) = 0%Z /\ rmin (ring_init d n) = 0%Z /\ items (ring_init d n) = d /\
  rmax (fold_left ring_append (x :: xs) (ring_init d n)) = fold_left Z.max xs x /\ rmin (fold_left ring_append (x :: xs) (ring_init d n)) = fold_left Z.min xs x.
Proof.
  intros d n x xs. split; [reflexivity|]. split; [reflexivity|]. split; [reflexivity|].
  assert (G : forall xs r, rebound r = true -> rmax (fold_left ring_append xs r) = fold_left Z.max xs (rmax r) /\ rmin (fold_left ring_append xs r) = fold_left Z.min xs (rmin r)).
  { induction xs0 as [|y ys IH]; intros r Hr; [auto|]. cbn [fold_left]. unfold ring_append at 2 4. rewrite Hr. destruct (IH (ring_append_more r y) eq_refl) as (A & B).
    rewrite A, B. unfold ring_append_more. cbn [rmax rmin]. now rewrite Z.max_comm, Z.min_comm. }
  exact (G xs (ring_append (ring_init d n) x) eq_refl).
Qed.
Print Assumptions C08_fresh.
Theorem C09_output : forall now rate t n, toutput (thr_init now rate) = true /\ toutput (fst (thr_update t n)) = snd (thr_update t n).
Proof. intros. split; [reflexivity|]. unfold thr_update. destruct (_ <? _)%Z; reflexivity. Qed.
Print Assumptions C09_output.
Example C02_outside_case : let a := mkdarr (-11) 10 (repeat 0%nat 10) in (len a < - Z.of_nat (length (store a)))%Z /\ (0 <= size a)%Z /\ store a <> [].
Proof. cbn. repeat split; try lia. discriminate. Qed.
Example C02_memory_case : Forall (fun r => length r = length ["a"; "T"]%string) (repeat [1; 2]%nat 20).
Proof. repeat constructor. Qed.
