(* What the rules of common/orthopoly.py are supposed to deliver, stated from
   the theory of orthogonal polynomials and without the model. *)
From Coq Require Import Reals.
From Verif Require Import Base.
Open Scope R_scope.
Local Notation length := List.length.

Fixpoint sumn (f : nat -> R) (n : nat) : R :=
  match n with O => 0 | S m => sumn f m + f m end.

Definition delta (i j : nat) : R := if Nat.eqb i j then 1 else 0.

(* The symmetric tridiagonal matrix with diagonal d and first upper diagonal u
   (u k sits at row k-1, column k). *)
Definition tri (u d : nat -> R) (k l : nat) : R :=
  if Nat.eqb k l then d k else if Nat.eqb l (S k) then u l
  else if Nat.eqb k (S l) then u k else 0.

(* x and V are an orthonormal eigen-decomposition of an n by n matrix. *)
Definition decomposes (n : nat) (J : nat -> nat -> R) (x : nat -> R) (V : nat -> nat -> R) : Prop :=
  (forall i k, (i < n)%nat -> (k < n)%nat ->
     sumn (fun l => J k l * V l i) n = x i * V k i)
  /\ (forall i j, (i < n)%nat -> (j < n)%nat ->
     sumn (fun k => V k i * V k j) n = delta i j)
  /\ (forall k l, (k < n)%nat -> (l < n)%nat ->
     sumn (fun i => V k i * V l i) n = delta k l).

(* The monic polynomials P_{k+1} = (x - alpha_k) P_k - beta_k P_{k-1}. *)
Fixpoint monic_pair (a b : nat -> R) (k : nat) (x : R) : R * R :=
  match k with
  | O => (1, 0)
  | S j => let '(p, q) := monic_pair a b j x in ((x - a j) * p - b j * q, p)
  end.
Definition monic (a b : nat -> R) (k : nat) (x : R) : R := fst (monic_pair a b k x).

(* The product beta_0 beta_1 ... beta_k. *)
Fixpoint prodn (b : nat -> R) (k : nat) : R :=
  match k with O => b O | S j => prodn b j * b (S j) end.

(* Polynomial functions of degree less than d. *)
Definition poly_lt (d : nat) (f : R -> R) : Prop :=
  exists c : nat -> R, forall x, f x = sumn (fun j => c j * x ^ j) d.
Definition polynomial (f : R -> R) : Prop := exists d, poly_lt d f.

(* Linear functionals on polynomials: integrals against a weight. *)
Definition functional (L : (R -> R) -> R) : Prop :=
  (forall f g, (forall x, f x = g x) -> L f = L g)
  /\ (forall f g u v, polynomial f -> polynomial g ->
        L (fun x => u * f x + v * g x) = u * L f + v * L g).
(* Positive on the squares of non-zero polynomials of degree less than n (it is
   enough to say so for leading coefficient one). *)
Definition positive (L : (R -> R) -> R) (n : nat) : Prop :=
  forall d f, (d < n)%nat -> poly_lt d f -> 0 < L (fun x => (x ^ d + f x) * (x ^ d + f x)).

(* alpha and beta are the recursion coefficients of the weight L, up to the
   polynomial of degree n: beta_0 is the total weight and the polynomials are
   orthogonal. *)
Definition coefficients_of (L : (R -> R) -> R) (a b : nat -> R) (n : nat) : Prop :=
  L (fun _ => 1) = b O
  /\ forall k l, (k < l <= n)%nat -> L (fun x => monic a b k x * monic a b l x) = 0.

(* A quadrature rule is exact below degree d. *)
Definition rule (x w : list R) (f : R -> R) : R :=
  sumn (fun i => nth i w 0 * f (nth i x 0)) (length x).
Definition exact (L : (R -> R) -> R) (x w : list R) (d : nat) : Prop :=
  forall f, poly_lt d f -> rule x w f = L f.

(* The matrix whose diagonals are the rows u, d, l in LAPACK's banded storage:
   u j at row j-1, l j at row j+1 of column j. *)
Definition band (u d l : nat -> R) (k j : nat) : R :=
  if Nat.eqb k j then d k else if Nat.eqb j (S k) then u j
  else if Nat.eqb k (S j) then l j else 0.
