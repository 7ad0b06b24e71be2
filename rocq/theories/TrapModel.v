(* Model of the quadratures of interactions/four_particle/cpp/trapezoidal.cpp and
   simpson.cpp, which no file includes: the shipped integral.cpp calls GSL
   instead. Floats are reals. A call of f is a miss of the cache (a std::map from
   abscissae to values, here a list), so the length of the cache counts the calls.
   n = 0 and n = 1 points divide by a zero or wrapped count and are outside the
   theorems. *)
From Coq Require Import Reals List PeanoNat.
Import ListNotations.
Open Scope R_scope.

(* trapezoidal.cpp:6-15 *)
Definition cache := list (R * R).
Fixpoint find (c : cache) (x : R) : option R :=
  match c with [] => None | (k, v) :: c' => if Req_EM_T x k then Some v else find c' x end.
Definition cached (f : R -> R) (c : cache) (x : R) : R * cache :=
  match find c x with Some v => (v, c) | None => (f x, (x, f x) :: c) end.

(* 3-26 with a cache. C++ leaves the order of F(a) and F(b) open; it only decides
   the order of insertion *)
Definition trapezium (f : R -> R) (a b : R) (n : nat) (c : cache) : R * cache :=
  let h := (b - a) / INR (n - 1) in
  let '(fa, c) := cached f c a in
  let '(fb, c) := cached f c b in
  let '(s, c) := fold_left (fun '(s, c) i => let '(v, c) := cached f c (a + h * INR i) in (s + v, c)) (seq 1 (n - 2)) ((fa + fb) / 2, c) in
  (h * s, c).
(* 3-26 without a cache *)
Definition trapezium0 (f : R -> R) (a b : R) (n : nat) : R :=
  let h := (b - a) / INR (n - 1) in
  h * fold_left (fun s i => s + f (a + h * INR i)) (seq 1 (n - 2)) ((f a + f b) / 2).

(* 35 and 72: a division by zero gives an infinity or NaN, and the comparison false *)
Definition small (epsabs epsrel error result : R) : bool :=
  if Rle_dec (Rabs error) epsabs then true
  else if Req_EM_T result 0 then false
  else if Rle_dec (Rabs (error / result)) epsrel then true else false.

(* 29-50: d is limit - n, the number of further subdivisions *)
Fixpoint adaptive (f : R -> R) (epsabs epsrel : R) (d : nat) (a b : R) (c : cache) : (R * R) * cache :=
  let '(coarse, c) := trapezium f a b 8 c in
  let '(fine, c) := trapezium f a b 15 c in
  let error := fine - coarse in
  match d with
  | O => ((fine, error), c)
  | S d =>
      if small epsabs epsrel error fine then ((fine, error), c) else
      let '((lr, le), c) := adaptive f epsabs epsrel d a ((a + b) / 2) c in
      let '((rr, re), c) := adaptive f epsabs epsrel d ((a + b) / 2) b c in
      ((lr + rr, le + re), c)
  end.
(* 53-59: n starts from 1 *)
Definition adaptive_trapezium (f : R -> R) (a b epsabs epsrel : R) (limit : nat) : (R * R) * cache :=
  adaptive f epsabs epsrel (limit - 1) a b [].

(* 68-78; None: result and error are the caller's uninitialised variables *)
Fixpoint refine (fuel : nat) (f : R -> R) (a b epsabs epsrel : R) (limit n : nat) (old : R) (out : option (R * R)) (c : cache) :
    nat * option (R * R) * cache :=
  match fuel with
  | O => (n, out, c)
  | S fuel =>
      if (2 * n - 1 <=? limit)%nat then
        let n := (n + (n - 1))%nat in
        let '(r, c) := trapezium f a b n c in
        let e := r - old in
        if small epsabs epsrel e r then (0%nat, Some (r, e), c) else refine fuel f a b epsabs epsrel limit n r (Some (r, e)) c
      else (n, out, c)
  end.
(* 62-84: the status and what is stored in result and error *)
Definition nonadaptive_trapezium (f : R -> R) (a b epsabs epsrel : R) (limit : nat) : nat * option (R * R) * cache :=
  let '(old, c) := trapezium f a b 20 [] in refine limit f a b epsabs epsrel limit 20 old None c.

(* simpson.cpp:4-12 *)
Definition integrate_sampled (m : (R -> R) -> R -> R -> R) (f : R -> R) (a b : R) (steps : nat) : R :=
  let h := (b - a) / INR steps in h * fold_left (fun s i => s + m f (a + h * INR i) h) (seq 0 steps) 0.
(* 15-36 *)
Inductive position := left | middle | right.
Definition rectangular (p : position) (f : R -> R) (x h : R) : R :=
  match p with left => f x | middle => f (x + h / 2) | right => f (x + h) end.
(* 38-46 *)
Definition trapezium_rule (f : R -> R) (x h : R) : R := (f x + f (x + h)) / 2.
(* 48-56 *)
Definition simpson (f : R -> R) (x h : R) : R := (f x + 4 * f (x + h / 2) + f (x + h)) / 6.
