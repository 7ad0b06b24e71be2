(* trapezoidal.cpp again, now with every operation rounded to the nearest binary
   float of 53 bits (ties to even; no underflow or overflow). Whether the cache of
   trapezoidal.cpp:6-15 hits depends on the equality of rounded abscissae. The
   integrand is any function of floats. Counts below 2^53 are exact as doubles.
   Contraction of a + h * i to a fused operation is not modelled. *)
From Coq Require Import Reals List PeanoNat ZArith.
From Flocq Require Import Core.
From Verif Require Import TrapModel.
Import ListNotations.
Open Scope R_scope.

Definition rnd (x : R) : R := round radix2 (FLX_exp 53) ZnearestE x.

(* 20 *)
Definition step_fl (a b : R) (n : nat) : R := rnd (rnd (b - a) / INR (n - 1)).
(* 23: the abscissa with number i *)
Definition node_fl (a b : R) (n i : nat) : R := rnd (a + rnd (step_fl a b n * INR i)).
(* 3-26 *)
Definition trapezium_fl (f : R -> R) (a b : R) (n : nat) (c : cache) : R * cache :=
  let '(fa, c) := cached f c a in
  let '(fb, c) := cached f c b in
  let '(s, c) := fold_left (fun '(s, c) i => let '(v, c) := cached f c (node_fl a b n i) in (rnd (s + v), c)) (seq 1 (n - 2)) (rnd (rnd (fa + fb) / 2), c) in
  (rnd (step_fl a b n * s), c).
Definition trapezium0_fl (f : R -> R) (a b : R) (n : nat) : R :=
  rnd (step_fl a b n * fold_left (fun s i => rnd (s + f (node_fl a b n i))) (seq 1 (n - 2)) (rnd (rnd (f a + f b) / 2))).

(* 72 *)
Definition small_fl (epsabs epsrel error result : R) : bool :=
  if Rle_dec (Rabs error) epsabs then true
  else if Req_EM_T result 0 then false
  else if Rle_dec (Rabs (rnd (error / result))) epsrel then true else false.
(* 68-78 *)
Fixpoint refine_fl (fuel : nat) (f : R -> R) (a b epsabs epsrel : R) (limit n : nat) (old : R) (out : option (R * R)) (c : cache) :
    nat * option (R * R) * cache :=
  match fuel with
  | O => (n, out, c)
  | S fuel =>
      if (2 * n - 1 <=? limit)%nat then
        let n := (n + (n - 1))%nat in
        let '(r, c) := trapezium_fl f a b n c in
        let e := rnd (r - old) in
        if small_fl epsabs epsrel e r then (0%nat, Some (r, e), c) else refine_fl fuel f a b epsabs epsrel limit n r (Some (r, e)) c
      else (n, out, c)
  end.
(* 62-84 *)
Definition nonadaptive_fl (f : R -> R) (a b epsabs epsrel : R) (limit : nat) : nat * option (R * R) * cache :=
  let '(old, c) := trapezium_fl f a b 20 [] in refine_fl limit f a b epsabs epsrel limit 20 old None c.
