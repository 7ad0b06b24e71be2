(* Integrals against the weight t^a log(1/t) on [0,1], improper at 0. *)
From Coq Require Import Reals.
From Coquelicot Require Import Coquelicot.
Open Scope R_scope.

(* v is the improper integral of f(t) t^a log(1/t) over [0,1] *)
Definition lw (a : R) (f : R -> R) (t : R) : R := f t * (Rpower t a * - ln t).
Definition log_integral (a : R) (f : R -> R) (v : R) : Prop :=
  (forall e, 0 < e <= 1 -> ex_RInt (lw a f) e 1)
  /\ filterlim (fun e => RInt (lw a f) e 1) (at_right 0) (locally v).

