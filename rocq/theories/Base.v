(* Shared definitions: exceptions as values, Python index conventions. *)
From Coq Require Export String.
From Coq Require Export List Arith ZArith Lia Bool.
Export ListNotations.
Open Scope list_scope.

(* Exception classes raised by the modelled code (Python built-ins, plus the
   C++ std::runtime_error / std::invalid_argument that pybind11 turns into
   RuntimeError / ValueError, and sys.exit). *)
Inductive exn :=
| KeyError | IndexError | ValueError | TypeError | AttributeError
| AssertionError | ZeroDivisionError | RuntimeError | GenericException
| UnboundLocalError | NameError | OverflowError | Exit (status : Z).

Inductive result (A : Type) :=
| Ok (a : A)
| Raise (e : exn).
Arguments Ok {A} a.
Arguments Raise {A} e.

Definition rbind {A B} (m : result A) (f : A -> result B) : result B :=
  match m with Ok a => f a | Raise e => Raise e end.
Definition rmap {A B} (f : A -> B) (m : result A) : result B :=
  match m with Ok a => Ok (f a) | Raise e => Raise e end.
Notation "'let*' x ':=' m 'in' k" := (rbind m (fun x => k))
  (at level 200, x pattern, m at level 100, k at level 200, right associativity).

(* Python/numpy integer index convention on a sequence of length n:
   0 <= i < n is direct, -n <= i < 0 counts from the end, otherwise IndexError. *)
Definition py_index (n : nat) (i : Z) : option nat :=
  if ((0 <=? i) && (i <? Z.of_nat n))%Z then Some (Z.to_nat i)
  else if ((- Z.of_nat n <=? i) && (i <? 0))%Z then Some (Z.to_nat (Z.of_nat n + i))
  else None.

Definition py_get {A} (l : list A) (i : Z) : result A :=
  match py_index (length l) i with
  | Some k => match nth_error l k with Some a => Ok a | None => Raise IndexError end
  | None => Raise IndexError
  end.

(* Python slice l[:k] for an integer k (negative k counts from the end). *)
Definition py_prefix {A} (l : list A) (k : Z) : list A :=
  if (0 <=? k)%Z then firstn (Z.to_nat k) l
  else firstn (Z.to_nat (Z.of_nat (length l) + k)) l.

(* Python slice l[k:] for an integer k. *)
Definition py_suffix {A} (l : list A) (k : Z) : list A :=
  if (0 <=? k)%Z then skipn (Z.to_nat k) l
  else skipn (Z.to_nat (Z.of_nat (length l) + k)) l.

Fixpoint set_nth {A} (n : nat) (x : A) (l : list A) : list A :=
  match l, n with
  | [], _ => []
  | _ :: t, O => x :: t
  | h :: t, S k => h :: set_nth k x t
  end.

Fixpoint remove_nth {A} (n : nat) (l : list A) : list A :=
  match l, n with
  | [], _ => []
  | _ :: t, O => t
  | h :: t, S k => h :: remove_nth k t
  end.

Fixpoint rfold {S O} (step : S -> O -> result S) (s : S) (ops : list O) : result S :=
  match ops with
  | [] => Ok s
  | o :: r => match step s o with Ok s' => rfold step s' r | Raise e => Raise e end
  end.

Lemma set_nth_length {A} n (x : A) l : length (set_nth n x l) = length l.
Proof. revert n; induction l as [|h t IH]; intros [|n]; simpl; auto. Qed.

Lemma remove_nth_length {A} n (l : list A) :
  n < length l -> length (remove_nth n l) = length l - 1.
Proof.
  revert n; induction l as [|h t IH]; intros [|n] H; simpl in *; try lia.
  rewrite IH by lia. lia.
Qed.

Lemma firstn_set_nth {A} n (x : A) l : firstn n (set_nth n x l) = firstn n l.
Proof.
  revert n; induction l as [|h t IH]; intros [|n]; simpl; auto. now rewrite IH.
Qed.

Lemma firstn_S_set_nth {A} n (x : A) l :
  n < length l -> firstn (S n) (set_nth n x l) = firstn n l ++ [x].
Proof.
  revert n; induction l as [|h t IH]; intros [|n] H; simpl in *; try lia; auto.
  f_equal. apply IH. lia.
Qed.

Lemma firstn_remove_nth {A} k n (l : list A) : k <= n -> firstn k (remove_nth n l) = firstn k l.
Proof.
  revert k n; induction l as [|h t IH]; intros [|k] [|n] H; simpl; auto; try lia.
  f_equal. apply IH. lia.
Qed.

Lemma nth_error_set_nth_eq {A} n (x : A) l : n < length l -> nth_error (set_nth n x l) n = Some x.
Proof. revert n; induction l as [|h t IH]; intros [|n] H; simpl in *; try lia; auto. apply IH; lia. Qed.

Lemma nth_error_set_nth_ne {A} n m (x : A) l : n <> m -> nth_error (set_nth n x l) m = nth_error l m.
Proof.
  revert n m; induction l as [|h t IH]; intros [|n] [|m] H; simpl; auto; try congruence.
Qed.

Lemma set_nth_in {A} n (x y : A) l : In y (set_nth n x l) -> y = x \/ In y l.
Proof.
  revert n; induction l as [|h t IH]; intros [|n]; simpl; intuition.
  destruct (IH _ H0); intuition.
Qed.

Lemma remove_nth_in {A} n (y : A) l : In y (remove_nth n l) -> In y l.
Proof. revert n; induction l as [|h t IH]; intros [|n]; simpl; intuition eauto. Qed.

Lemma Forall2_len {A B} (R : A -> B -> Prop) l l' : Forall2 R l l' -> length l = length l'.
Proof. induction 1; simpl; congruence. Qed.
