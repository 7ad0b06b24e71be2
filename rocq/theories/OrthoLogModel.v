(* Model of the modified moments of the logarithmic weight t^a log(1/t),
   common/orthopoly.py:294-337, entry by entry.  OrthoModel.mm_log models the
   exceptions and leaves the entries abstract. *)
From Coq Require Import Reals.
From Verif Require Import Base OrthoModel.
Open Scope R_scope.
Local Notation length := List.length.

(* The parameter a: a Python int, or any other number (isinstance(a,int) is what
   line 322 asks for; numpy's integers and floats are not). *)
Inductive number := Int (z : Z) | Float (x : R).
Definition value (a : number) : R := match a with Int z => IZR z | Float x => x end.

(* 316: prod = lambda z: reduce(lambda x,y:x*y,z,1) *)
Definition prod (l : list R) : R := fold_left Rmult l 1.
(* numpy's sum over an array: the built-in sum, starting from 0 *)
Definition total_of (l : list R) : R := fold_left Rplus l 0.

(* 328-334: the entry for n >= 1 computed from the arrays over k = 1 .. n. With
   a + 1 - k = 0 for some k numpy divides by zero: sum(s) is -inf, prod(p) is 0
   and the entry is nan, here None. *)
Definition array_entry (a : R) (n : nat) : option R :=
  let k := map INR (seq 1 n) in
  if existsb (fun k => if Req_EM_T (a + 1 - k) 0 then true else false) k then None else
  let s := map (fun k => 1 / (a + 1 + k) - 1 / (a + 1 - k)) k in
  let p := map (fun k => (a + 1 - k) / (a + 1 + k)) k in
  Some ((1 / (a + 1) + total_of s) * prod p / (a + 1)).

(* 322-334: mm[n] before it is multiplied by c *)
Definition raw_entry (gamma : R -> R) (a : number) (n : nat) : option R :=
  let other := match n with O => Some (1 / (value a + 1) ^ 2) | _ => array_entry (value a) n end in
  match a with
  | Int z =>
      if (z <? Z.of_nat n)%Z then
        let p := map (fun i => IZR (Z.of_nat n - z + Z.of_nat i)) (seq 0 (Z.to_nat (2 * z + 2))) in
        Some ((-1) ^ Z.to_nat (Z.of_nat n - z) / prod p * gamma (IZR z + 1) ^ 2)
      else other
  | Float _ => other
  end.
(* 320, 337: c before iteration n *)
Fixpoint factor (n : nat) : R :=
  match n with O => 1 | S m => factor m * (/ 2 * (INR m + 1) / (2 * INR m + 1)) end.
(* 336 *)
Definition log_moment (gamma : R -> R) (a : number) (n : nat) : option R :=
  match raw_entry gamma a n with Some x => Some (x * factor n) | None => None end.

(* 294-339: the whole array, with the exceptions of OrthoModel.mm_log *)
Definition log_moments (gamma : R -> R) (v : python) (N : nat) (a : number) : result (list (option R)) :=
  let* _ := mm_log v (fun _ _ => 0) N (value a) in Ok (map (log_moment gamma a) (seq 0 N)).
