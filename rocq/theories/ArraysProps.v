(* C01-C09: tables, ring_deque, Throttler. *)
From Verif Require Import Base ArraysModel ArraysProofs.

(* C01, Dynamic2DArray: after any history of append/extend/truncate whose rows
   fit the table and that never truncates an empty table, the visible rows,
   len() and every integer index (positive or negative) are those of the list
   obtained by pushing and popping. *)
Theorem C01_dynamic2d_is_a_list :
  forall (V : Type) (v0 : V) (w : nat) (ops : list op2d) (lops : list (lop (list V))) (l : list (list V)),
  lops_of2d v0 w ops = Some lops -> lrun [] lops = Some l ->
  exists a, run2d v0 w (init2d v0 w) ops = (a, Ok tt) /\ data a = l /\
            py_len a = Ok (Z.of_nat (length l)) /\
            (forall i, getitem2d a i = py_get l i).
Proof.
  intros V v0 w ops lops l H1 H2.
  destruct (run2d_from_init v0 w ops lops l H1 H2) as (a & Ha & _ & Hrest). exists a. tauto.
Qed.
Print Assumptions C01_dynamic2d_is_a_list.
Example C01_ex : exists lops l,
  lops_of2d 0 2 [Append2 [1;2]; Extend2 [[3;4];[5]]; Truncate2; Append2 [7;8]] = Some lops /\
  lrun [] lops = Some l /\ l = [[1;2];[3;4];[7;8]].
Proof. do 2 eexists. repeat split. Qed.

(* C01, DynamicRecArray *)
Theorem C01_dynamicrec_is_a_list :
  forall (V : Type) (v0 : V) (columns : list string) ops lops (l : list (list V)),
  Forall2 (rec_lop columns) ops lops -> lrun [] lops = Some l ->
  exists a, runrec v0 columns (initrec v0 columns) ops = (a, Ok tt) /\ data a = l /\
            py_len a = Ok (Z.of_nat (length l)).
Proof.
  intros V v0 columns ops lops l H1 H2.
  destruct (runrec_from_init v0 columns ops lops l H1 H2) as (a & Ha & _ & Hrest). exists a. tauto.
Qed.
Print Assumptions C01_dynamicrec_is_a_list.
Example C01_rec_ex : exists lops,
  Forall2 (rec_lop ["T"; "a"]%string)
    [AppendR (RDict [("a", 1); ("T", 2)]%string); ExtendR [RTuple [3; 4]]; TruncateR] lops
  /\ lrun [] lops = Some [[2; 1]].
Proof.
  exists [LPush [[2;1]]; LPush [[3;4]]; LPop]. split; [|reflexivity].
  repeat constructor.
  - exists [("a", 1)]%string, []. split; [reflexivity|]. simpl. intros [H|[]]; discriminate H.
  - exists [], [("T", 2)]%string. split; [reflexivity|]. simpl. tauto.
Qed.

(* C02: same histories; every state keeps two spare rows, the storage never
   exceeds `size`, and no operation raises. *)
Theorem C02_capacity_dynamic2d :
  forall (V : Type) (v0 : V) (w : nat) ops lops (l : list (list V)),
  lops_of2d v0 w ops = Some lops -> lrun [] lops = Some l ->
  exists a, run2d v0 w (init2d v0 w) ops = (a, Ok tt) /\
    (0 <= len a)%Z /\ (len a + 2 <= Z.of_nat (length (store a)))%Z /\
    (Z.of_nat (length (store a)) <= size a)%Z /\ (10 <= size a)%Z.
Proof.
  intros V v0 w ops lops l H1 H2.
  destruct (run2d_from_init v0 w ops lops l H1 H2) as (a & Ha & (C0 & C1 & C2 & C3) & _).
  exists a. repeat split; auto; lia.
Qed.
Print Assumptions C02_capacity_dynamic2d.
Theorem C02_capacity_dynamicrec :
  forall (V : Type) (v0 : V) (columns : list string) ops lops (l : list (list V)),
  Forall2 (rec_lop columns) ops lops -> lrun [] lops = Some l ->
  exists a, runrec v0 columns (initrec v0 columns) ops = (a, Ok tt) /\
    (0 <= len a)%Z /\ (len a + 2 <= Z.of_nat (length (store a)))%Z /\
    (Z.of_nat (length (store a)) <= size a)%Z /\ (10 <= size a)%Z.
Proof.
  intros V v0 columns ops lops l H1 H2.
  destruct (runrec_from_init v0 columns ops lops l H1 H2) as (a & Ha & (C0 & C1 & C2 & C3) & _).
  exists a. repeat split; auto; lia.
Qed.
Print Assumptions C02_capacity_dynamicrec.

(* C03: column access after recording dictionaries in any key order *)
Theorem C03_columns :
  forall (V : Type) (v0 : V) (columns : list string) (int_of_string : string -> option Z)
         (ds : list (list (string * V))) rows,
  Forall2 (fun d row => Forall2 (lookup_spec d) columns row) ds rows ->
  NoDup columns ->
  exists a, runrec v0 columns (initrec v0 columns) (map (fun d => AppendR (RDict d)) ds) = (a, Ok tt) /\
    forall c, In c columns -> forall vs, Forall2 (fun d v => lookup_spec d c v) ds vs ->
      getitemrec v0 columns int_of_string a (IStr c) = Ok (Column vs).
Proof. exact (fun V => @column_after_appends V). Qed.
Print Assumptions C03_columns.
Example C03_ex : Forall2 (fun d row => Forall2 (lookup_spec d) ["T"; "a"]%string row)
   [[("T", 1); ("a", 2)]; [("a", 4); ("T", 3)]]%string [[1; 2]; [3; 4]] /\ NoDup ["T"; "a"]%string.
Proof.
  split.
  - repeat constructor.
    + exists [], [("a", 2)]%string. simpl. tauto.
    + exists [("T", 1)]%string, []. simpl. split; [reflexivity|]. intros [H|[]]; discriminate H.
    + exists [("a", 4)]%string, []. simpl. split; [reflexivity|]. intros [H|[]]; discriminate H.
    + exists [], [("T", 3)]%string. simpl. tauto.
  - repeat constructor; simpl; intros H; repeat (destruct H as [H|H]; try discriminate H); auto.
Qed.

(* C03: a dictionary lacking a declared column is rejected and changes nothing *)
Theorem C03_missing_column :
  forall (V : Type) (v0 : V) (columns : list string) (a : darr (list V)) d c,
  In c columns -> ~ In c (map fst d) ->
  appendrec v0 columns a (RDict d) = (a, Raise KeyError).
Proof.
  intros V v0 columns a d c H1 H2. unfold appendrec. now rewrite (dict_row_missing _ _ _ H1 H2).
Qed.
Print Assumptions C03_missing_column.
Example C03_missing_ex : In "T"%string ["T"; "a"]%string /\ ~ In "T"%string (map fst [("a"%string, 1)]).
Proof. split; simpl; [auto|]. intros [H|[]]; discriminate H. Qed.

(* C04 is false: for EVERY non-empty recorded history of pairwise distinct
   non-zero rows, arr[-1] is not the last recorded row. *)
Theorem C04_negative_index_refuted :
  forall (V : Type) (v0 : V) (columns : list string) (int_of_string : string -> option Z) rows,
  rows <> [] -> Forall (fun r => length r = length columns) rows ->
  ~ In (repeat v0 (length columns)) rows -> NoDup rows ->
  exists a, runrec v0 columns (initrec v0 columns) (map (fun r => AppendR (RTuple r)) rows) = (a, Ok tt) /\
    data a = rows /\
    getitemrec v0 columns int_of_string a (IInt (-1)) <> Ok (Row (last rows [])).
Proof. exact (fun V => @last_index_wrong V). Qed.
Print Assumptions C04_negative_index_refuted.
Example C04_ex : [[1];[2]] <> [] /\ Forall (fun r => length r = 1) [[1];[2]] /\
  ~ In (repeat 0 1) [[1];[2]] /\ NoDup [[1];[2]].
Proof.
  split; [discriminate|]. split; [repeat constructor|]. split.
  - simpl. intros [H|[H|[]]]; discriminate H.
  - repeat constructor; simpl; intros H; repeat (destruct H as [H|H]; try discriminate H); auto.
Qed.

(* C05 is false: truncating a fresh table exposes eight zero rows, makes len()
   raise, and the next appended row is lost. *)
Theorem C05_truncate_empty_refuted :
  forall (A : Type) (zero r : A),
  let a := fst (truncate (init zero)) in
  data a = repeat zero 8 /\ py_len a = Raise ValueError /\
  data (fst (append_row zero a (Some r))) = [] /\
  snd (append_row zero a (Some r)) = Ok tt.
Proof. exact @truncate_empty_bad. Qed.
Print Assumptions C05_truncate_empty_refuted.

(* C06 is false: a brand-new second universe already shows the first one's row;
   and in general every universe shows everything saved by anyone. *)
Theorem C06_independent_histories_refuted :
  forall (V : Type) (v0 v1 : V) (c : string),
  exists p, urun v0 [c] (uproc_init v0 [c]) [NewUniverse; SaveParams 0 [(c, v1)]; NewUniverse] = Ok p /\
            udata p 1 = [[v1]].
Proof. exact @shared_refuted. Qed.
Print Assumptions C06_independent_histories_refuted.
Theorem C06_every_universe_sees_all_rows :
  forall (V : Type) (v0 : V) (columns : list string) events p u,
  urun v0 columns (uproc_init v0 columns) events = Ok p ->
  exists rs, Forall2 (fun d r => Forall2 (lookup_spec d) columns r) (saved events) rs /\ udata p u = rs.
Proof.
  intros V v0 columns events p u H.
  destruct (shared_all v0 columns events (uproc_init v0 columns) (cap_init _) p H) as (rs & H1 & H2 & _).
  exists rs. split; [exact H1|exact H2].
Qed.
Print Assumptions C06_every_universe_sees_all_rows.

(* C07 is false as documented ("Circular deque" of a given length): one more
   element is kept... *)
Theorem C07_ring_bound_refuted :
  exists (n : Z) (xs : list Z),
  (Z.of_nat (length (items (ring_run (ring_init [] n) xs))) > n)%Z.
Proof. exists 2%Z, [1; 2; 3; 4]%Z. vm_compute. reflexivity. Qed.
Print Assumptions C07_ring_bound_refuted.
(* ...exactly the newest length+1 values, for every history *)
Theorem C07_ring_contents :
  forall (d : list Z) (n : nat) (x : Z) (xs : list Z), length d <= n ->
  items (ring_run (ring_init d (Z.of_nat n)) (x :: xs)) = lastn (S n) (d ++ x :: xs).
Proof. exact ring_contents. Qed.
Print Assumptions C07_ring_contents.
Example C07_ex : items (ring_run (ring_init [5%Z] 2) [1; 2; 3; 4]%Z) = [2; 3; 4]%Z.
Proof. reflexivity. Qed.

(* C08 *)
Theorem C08_ring_extremes :
  forall d n x xs,
  let r := ring_run (ring_init d n) (x :: xs) in
  (forall y, In y (x :: xs) -> (rmin r <= y <= rmax r)%Z) /\
  In (rmax r) (x :: xs) /\ In (rmin r) (x :: xs).
Proof. exact ring_extremes. Qed.
Print Assumptions C08_ring_extremes.

(* C09: consecutive accepted updates (the construction counts as the first) are
   at least `rate` apart, whatever the clock does; *)
Theorem C09_throttler_gap :
  forall now rate times pre a b post, (0 <= rate)%Z ->
  now :: accepted times (thr_run (thr_init now rate) times) = pre ++ a :: b :: post ->
  (b - a >= rate)%Z.
Proof. intros now rate times pre a b post Hr H. exact (thr_gap times (thr_init now rate) Hr pre a b post H). Qed.
Print Assumptions C09_throttler_gap.
Example C09_ex : 0%Z :: accepted [1; 5; 3; 9; 20]%Z (thr_run (thr_init 0 4) [1; 5; 3; 9; 20]%Z) = [0; 5; 9; 20]%Z.
Proof. reflexivity. Qed.
(* and an update is accepted exactly when `rate` has passed since the last
   accepted one. *)
Theorem C09_throttler_decision :
  forall now rate times n,
  nth (length times) (thr_run (thr_init now rate) (times ++ [n])) false = true <->
  (n - last (accepted times (thr_run (thr_init now rate) times)) now >= rate)%Z.
Proof. intros now rate times n. exact (thr_decision times (thr_init now rate) n). Qed.
Print Assumptions C09_throttler_decision.
