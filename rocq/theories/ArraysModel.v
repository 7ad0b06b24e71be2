(* Model of the append-only numpy-backed tables, ring_deque and Throttler of
   common/utils.py. Definitions only. *)
From Verif Require Import Base.

(* ------------------------------------------------------------------ *)
(* common/utils.py:169-176, 218-234: the fields `length`, `size`, `_data`.
   `_data` is a numpy array of rows; modelled as a list of rows, so that
   len(_data) is the length of the list. `length` is a Z because truncate can
   make it negative. *)
Record darr (A : Type) := mkdarr { len : Z; size : Z; store : list A }.
Arguments mkdarr {A} _ _ _.
Arguments len {A} _.
Arguments size {A} _.
Arguments store {A} _.

Section Generic.
Context {A : Type}.
Variable zero : A.     (* the all-zero row written by numpy.zeros *)

(* utils.py:173-175, 231-234 *)
Definition init : darr A := mkdarr 0 10 (repeat zero 10).

(* utils.py:177, 236: __len__ (the builtin len() raises ValueError when the
   method returns a negative number). *)
Definition py_len (a : darr A) : result Z :=
  if (len a <? 0)%Z then Raise ValueError else Ok (len a).

(* utils.py:205-207, 269-271: data = _data[:length] *)
Definition data (a : darr A) : list A := py_prefix (store a) (len a).

(* numpy.resize(old, n): the flattened contents repeated cyclically up to the
   new size (zeros when old is empty). *)
Definition np_resize (old : list A) (n : nat) : list A :=
  match old with
  | [] => repeat zero n
  | _ => map (fun i => nth (i mod length old) old zero) (seq 0 n)
  end.

(* utils.py:195-197, 259-261: the capacity test and reallocation;
   int(1.5*size) for size >= 0 is the floor of 3*size/2 (exact in binary64 for
   the sizes that fit in memory). *)
Definition grow (a : darr A) : darr A :=
  if ((len a =? size a) || (len a =? Z.of_nat (length (store a)) - 2))%Z
  then let s := (3 * size a / 2)%Z in mkdarr (len a) s (np_resize (store a) (Z.to_nat s))
  else a.

(* utils.py:198-199, 262-263: `_data[length] = row; length += 1`. The row
   argument has already been converted by numpy's assignment rules: None means
   the assignment raises ValueError. The conversion happens after growing. *)
Definition append_row (a : darr A) (row : option A) : darr A * result unit :=
  let g := grow a in
  match py_index (length (store g)) (len g), row with
  | None, _ => (g, Raise IndexError)
  | Some _, None => (g, Raise ValueError)
  | Some k, Some r => (mkdarr (len g + 1) (size g) (set_nth k r (store g)), Ok tt)
  end.

(* utils.py:209-211, 288-290: numpy.delete(_data, length+1, axis=0) raises
   IndexError for an index outside [-n, n). *)
Definition truncate (a : darr A) : darr A * result unit :=
  match py_index (length (store a)) (len a + 1) with
  | None => (a, Raise IndexError)
  | Some k => (mkdarr (len a - 1) (size a) (remove_nth k (store a)), Ok tt)
  end.

End Generic.

(* ------------------------------------------------------------------ *)
(* Dynamic2DArray: rows are lists of `w` numbers, w = len(header). *)
Section TwoD.
Context {V : Type}.
Variable v0 : V.         (* 0.0 *)
Variable w : nat.        (* len(header), utils.py:171 *)

(* numpy broadcasting of a 1-D row into a row of length w (utils.py:198:
   `_data[length][:] = row`). *)
Definition row2d (row : list V) : option (list V) :=
  if length row =? w then Some row
  else match row with [v] => Some (repeat v w) | _ => None end.

Definition zero2d : list V := repeat v0 w.
Definition init2d := init zero2d.
Definition append2d (a : darr (list V)) (row : list V) := append_row zero2d a (row2d row).

(* utils.py:201-203 *)
Fixpoint extend2d (a : darr (list V)) (rows : list (list V)) : darr (list V) * result unit :=
  match rows with
  | [] => (a, Ok tt)
  | r :: t => match append2d a r with
              | (a', Ok _) => extend2d a' t
              | (a', Raise e) => (a', Raise e)
              end
  end.

(* utils.py:180-181, integer index *)
Definition getitem2d (a : darr (list V)) (i : Z) : result (list V) := py_get (data a) i.

Inductive op2d := Append2 (r : list V) | Extend2 (rs : list (list V)) | Truncate2.
Definition step2d (a : darr (list V)) (o : op2d) : darr (list V) * result unit :=
  match o with
  | Append2 r => append2d a r
  | Extend2 rs => extend2d a rs
  | Truncate2 => truncate a
  end.
(* a history of calls; the first exception ends it *)
Fixpoint run2d (a : darr (list V)) (ops : list op2d) : darr (list V) * result unit :=
  match ops with
  | [] => (a, Ok tt)
  | o :: t => match step2d a o with
              | (a', Ok _) => run2d a' t
              | (a', Raise e) => (a', Raise e)
              end
  end.
End TwoD.

(* ------------------------------------------------------------------ *)
(* DynamicRecArray: a structured array; a record is the list of its field
   values in column order. *)
Section Rec.
Context {V : Type}.
Variable v0 : V.
Variable columns : list string.                 (* utils.py:223 *)
Variable int_of_string : string -> option Z.    (* Python's int(str) *)

Inductive recarg := RDict (d : list (string * V)) | RTuple (t : list V).

Fixpoint dict_get (d : list (string * V)) (c : string) : option V :=
  match d with
  | [] => None
  | (k, v) :: r => if String.eqb k c then Some v else dict_get r c
  end.

(* utils.py:257: tuple(rec[column] for column in self.columns) *)
Fixpoint dict_row (cols : list string) (d : list (string * V)) : result (list V) :=
  match cols with
  | [] => Ok []
  | c :: r => match dict_get d c with
              | None => Raise KeyError
              | Some v => let* t := dict_row r d in Ok (v :: t)
              end
  end.

Definition zerorec : list V := repeat v0 (length columns).
Definition initrec := init zerorec.

(* utils.py:255-263. numpy rejects a tuple of the wrong length with ValueError. *)
Definition appendrec (a : darr (list V)) (rec : recarg) : darr (list V) * result unit :=
  match (match rec with RDict d => dict_row columns d | RTuple t => Ok t end) with
  | Raise e => (a, Raise e)
  | Ok t => append_row zerorec a (if length t =? length columns then Some t else None)
  end.

(* utils.py:265-267 *)
Fixpoint extendrec (a : darr (list V)) (recs : list recarg) : darr (list V) * result unit :=
  match recs with
  | [] => (a, Ok tt)
  | r :: t => match appendrec a r with
              | (a', Ok _) => extendrec a' t
              | (a', Raise e) => (a', Raise e)
              end
  end.

Inductive idx := IStr (s : string) | IInt (z : Z).
Inductive item := Column (vs : list V) | Row (r : list V).

Fixpoint col_pos (cols : list string) (c : string) : option nat :=
  match cols with
  | [] => None
  | k :: r => if String.eqb k c then Some 0 else option_map S (col_pos r c)
  end.

(* utils.py:247-253: a column name selects the column of the visible rows;
   any other index is converted with int(), negative values are rewritten as
   length+1-index, and the *storage* (not the visible part) is indexed. *)
Definition getitemrec (a : darr (list V)) (i : idx) : result item :=
  let by_int (z : Z) :=
    let z' := if (z <? 0)%Z then (len a + 1 - z)%Z else z in
    rmap Row (py_get (store a) z') in
  match i with
  | IStr s => match col_pos columns s with
              | Some p => Ok (Column (map (fun r => nth p r v0) (data a)))
              | None => match int_of_string s with
                        | Some z => by_int z
                        | None => Raise ValueError
                        end
              end
  | IInt z => by_int z
  end.

Inductive oprec := AppendR (r : recarg) | ExtendR (rs : list recarg) | TruncateR.
Definition steprec (a : darr (list V)) (o : oprec) : darr (list V) * result unit :=
  match o with
  | AppendR r => appendrec a r
  | ExtendR rs => extendrec a rs
  | TruncateR => truncate a
  end.
Fixpoint runrec (a : darr (list V)) (ops : list oprec) : darr (list V) * result unit :=
  match ops with
  | [] => (a, Ok tt)
  | o :: t => match steprec a o with
              | (a', Ok _) => runrec a' t
              | (a', Raise e) => (a', Raise e)
              end
  end.
End Rec.

(* ------------------------------------------------------------------ *)
(* ring_deque, common/utils.py:48-73. Instance fields: the deque contents,
   `length`, `max`, `min` and whether `append` has been rebound to
   `append_more`. Values are integers here (the code only compares and moves
   them). *)
Record ring := mkring { items : list Z; rlength : Z; rmax : Z; rmin : Z; rebound : bool }.

(* utils.py:51-56 *)
Definition ring_init (d : list Z) (n : Z) : ring := mkring d n 0 0 false.

(* utils.py:58-65 *)
Definition ring_append_more (r : ring) (x : Z) : ring :=
  let its := if (Z.of_nat (length (items r)) >? rlength r)%Z then tl (items r) else items r in
  mkring (its ++ [x]) (rlength r) (Z.max x (rmax r)) (Z.min x (rmin r)) true.

(* utils.py:67-73; once rebound, calls go to append_more *)
Definition ring_append (r : ring) (x : Z) : ring :=
  if rebound r then ring_append_more r x
  else mkring (items r ++ [x]) (rlength r) x x true.

(* ------------------------------------------------------------------ *)
(* Throttler, common/utils.py:30-45; time is an integer number of clock ticks
   supplied by the environment. *)
Record throttler := mkthr { tclock : Z; trate : Z; toutput : bool }.
Definition thr_init (now rate : Z) : throttler := mkthr now rate true.   (* 31-34 *)
Definition thr_update (t : throttler) (now : Z) : throttler * bool :=    (* 36-45 *)
  if (now - tclock t <? trate t)%Z then (mkthr (tclock t) (trate t) false, false)
  else (mkthr now (trate t) true, true).
Fixpoint thr_run (t : throttler) (times : list Z) : list bool :=
  match times with
  | [] => []
  | n :: r => let (t', b) := thr_update t n in b :: thr_run t' r
  end.

(* ------------------------------------------------------------------ *)
(* evolution.py:36-46 and 305-316: `data` is created once, in the class body of
   Universe; __init__ (48-71) does not create a per-instance table and
   save_params appends to whatever attribute lookup finds, i.e. the class
   object. Model: a process with a number of live universes and one table. *)
Section Shared.
Context {V : Type}.
Variable v0 : V.
Variable columns : list string.
Inductive uevent := NewUniverse | SaveParams (u : nat) (row : list (string * V)).
Record uproc := mkproc { alive : nat; cls_data : darr (list V) }.
Definition uproc_init : uproc := mkproc 0 (initrec v0 columns).
Definition ustep (p : uproc) (e : uevent) : result uproc :=
  match e with
  | NewUniverse => Ok (mkproc (S (alive p)) (cls_data p))
  | SaveParams u row =>
      if u <? alive p then
        match appendrec v0 columns (cls_data p) (RDict row) with
        | (d, Ok _) => Ok (mkproc (alive p) d)
        | (_, Raise e) => Raise e
        end
      else Raise NameError
  end.
Definition urun := rfold ustep.
(* universe u's `data.data` *)
Definition udata (p : uproc) (u : nat) : list (list V) := data (cls_data p).
End Shared.
