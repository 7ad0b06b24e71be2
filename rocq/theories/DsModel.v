(* Model of interactions/four_particle/cpp/Ds.cpp over the reals. Arrays of four
   are functions of an index. Integer factors are converted to reals. *)
From Coq Require Import Reals.
From Verif Require Import Base.
Open Scope R_scope.

(* Ds.cpp:4-6 *)
Definition sgn (x : R) : R := (if Rlt_dec 0 x then 1 else 0) - (if Rlt_dec x 0 then 1 else 0).

(* Ds.cpp:40-62 *)
Definition D1 (q1 q2 q3 q4 : R) : R :=
  1 / 4 * (- Rabs (q1 + q2 - q3 - q4) - Rabs (q1 - q2 + q3 - q4)
           + Rabs (q1 + q2 + q3 - q4) - Rabs (q1 - q2 - q3 + q4)
           + Rabs (q1 + q2 - q3 + q4) + Rabs (q1 - q2 + q3 + q4)
           + Rabs (- q1 + q2 + q3 + q4) - Rabs (q1 + q2 + q3 + q4)).

(* Ds.cpp:111-128, after the two swaps *)
Definition D2_body (q1 q2 q3 q4 : R) : R :=
  (24 * q1 * q2 * q4 + 24 * q2 * q3 * q4 + Rabs (q1 + q2 - q3 - q4) ^ 3 + Rabs (q1 - q2 - q3 + q4) ^ 3
   - Rabs (q1 + q2 - q3 + q4) ^ 3
   + 6 * q3 * q4 * (4 * q2 + Rabs (q1 + q2 - q3 - q4) - Rabs (q1 - q2 - q3 + q4) + Rabs (q1 + q2 - q3 + q4) - Rabs (- q1 + q2 + q3 + q4))
   - Rabs (- q1 + q2 + q3 + q4) ^ 3
   - 3 * q4 * ((- q1 + q2 + q3 + q4) ^ 2 * sgn (q1 - q2 - q3 - q4) - (q1 + q2 - q3 - q4) ^ 2 * sgn (q1 + q2 - q3 - q4)
               - (q1 - q2 + q3 - q4) ^ 2 * sgn (q1 - q2 + q3 - q4) + (q1 + q2 + q3 - q4) ^ 2 * sgn (q1 + q2 + q3 - q4)
               + (q1 - q2 - q3 + q4) ^ 2 * sgn (q1 - q2 - q3 + q4) - (q1 + q2 - q3 + q4) ^ 2 * sgn (q1 + q2 - q3 + q4)
               - (q1 - q2 + q3 + q4) ^ 2 * sgn (q1 - q2 + q3 + q4) + (q1 + q2 + q3 + q4) ^ 2 * sgn (q1 + q2 + q3 + q4))
   - 3 * q3 * ((- q1 + q2 + q3 + q4) ^ 2 * sgn (q1 - q2 - q3 - q4) - (q1 + q2 - q3 - q4) ^ 2 * sgn (q1 + q2 - q3 - q4)
               + (q1 - q2 + q3 - q4) ^ 2 * sgn (q1 - q2 + q3 - q4) - (q1 + q2 + q3 - q4) ^ 2 * sgn (q1 + q2 + q3 - q4)
               - (q1 - q2 - q3 + q4) ^ 2 * sgn (q1 - q2 - q3 + q4) + (q1 + q2 - q3 + q4) ^ 2 * sgn (q1 + q2 - q3 + q4)
               - (q1 - q2 + q3 + q4) ^ 2 * sgn (q1 - q2 + q3 + q4) + (q1 + q2 + q3 + q4) ^ 2 * sgn (q1 + q2 + q3 + q4))) / 24.

(* std::swap of a pair given in increasing order, Ds.cpp:115-116, 147-148 *)
Definition swapped (body : R -> R -> R -> R -> R) (q1 q2 q3 q4 : R) : R :=
  let '(q1, q2) := if Rlt_dec q1 q2 then (q2, q1) else (q1, q2) in
  let '(q3, q4) := if Rlt_dec q3 q4 then (q4, q3) else (q3, q4) in
  body q1 q2 q3 q4.

Definition D2 : R -> R -> R -> R -> R := swapped D2_body.

(* Ds.cpp:132-180, after the two swaps *)
Definition D3_body (q1 q2 q3 q4 : R) : R :=
  if Rlt_dec (q2 + q3 + q4) q1 then 0 else
  if Rlt_dec (q2 + q1 + q4) q3 then 0 else
  if Rle_dec (q3 + q4) (q1 + q2) then
    if Rle_dec (q2 + q3) (q1 + q4) then
      (q1 ^ 5 - q2 ^ 5 - q3 ^ 5 - q4 ^ 5
       + 5 * (q1 ^ 2 * q2 ^ 2 * (q2 - q1)
              + q3 ^ 2 * (q2 ^ 3 - q1 ^ 3 + (q2 ^ 2 + q1 ^ 2) * q3)
              + q4 ^ 2 * (q2 ^ 3 - q1 ^ 3 + q3 ^ 3 + (q1 ^ 2 + q2 ^ 2 + q3 ^ 2) * q4))) / 60
    else q4 ^ 3 * (5 * (q1 ^ 2 + q2 ^ 2 + q3 ^ 2) - q4 ^ 2) / 30
  else
    if Rle_dec (q2 + q3) (q1 + q4) then
      q2 ^ 3 * (5 * (q1 ^ 2 + q3 ^ 2 + q4 ^ 2) - q2 ^ 2) / 30
    else
      (q3 ^ 5 - q4 ^ 5 - q1 ^ 5 - q2 ^ 5
       + 5 * (q3 ^ 2 * q4 ^ 2 * (q4 - q3)
              + q1 ^ 2 * (q4 ^ 3 - q3 ^ 3 + (q4 ^ 2 + q3 ^ 2) * q1)
              + q2 ^ 2 * (q4 ^ 3 - q3 ^ 3 + q1 ^ 3 + (q1 ^ 2 + q3 ^ 2 + q4 ^ 2) * q2))) / 60.
Definition D3 : R -> R -> R -> R -> R := swapped D3_body.

(* Ds.cpp:184-212; order = (i, j, k, l) *)
Definition Dfun (p E m : nat -> R) (K1 K2 : R) (order : nat * nat * nat * nat) (sides : nat -> Z) : R :=
  let '(i, j, k, l) := order in
  let sisj := IZR (sides i * sides j) in
  let sksl := IZR (sides k * sides l) in
  let sisjsksl := IZR (sides i * sides j * sides k * sides l) in
  0 + (if Req_EM_T K1 0 then 0 else
         K1 * (E 0%nat * E 1%nat * E 2%nat * E 3%nat * D1 (p 0%nat) (p 1%nat) (p 2%nat) (p 3%nat)
               + sisjsksl * D3 (p 0%nat) (p 1%nat) (p 2%nat) (p 3%nat))
         + K1 * (E i * E j * sksl * D2 (p i) (p j) (p k) (p l) + E k * E l * sisj * D2 (p k) (p l) (p i) (p j)))
    + (if Req_EM_T K2 0 then 0 else
         K2 * m i * m j * (E k * E l * D1 (p 0%nat) (p 1%nat) (p 2%nat) (p 3%nat) + sksl * D2 (p i) (p j) (p k) (p l))).

(* std::sort of three numbers in decreasing order, Ds.cpp:219-225 *)
Definition sort3 (a b c : R) : R * R * R :=
  let '(a, b) := if Rlt_dec a b then (b, a) else (a, b) in
  let '(b, c) := if Rlt_dec b c then (c, b) else (b, c) in
  let '(a, b) := if Rlt_dec a b then (b, a) else (a, b) in (a, b, c).

(* Ds.cpp:215-229 *)
Definition Db1 (q2 q3 q4 : R) : R :=
  let '(y1, y2, y3) := sort3 q2 q3 q4 in
  1 / 2 * (sgn (y1 + y2 - y3) + sgn (y1 - y2 + y3) - sgn (y1 - y2 - y3) - sgn (y1 + y2 + y3)).

(* Ds.cpp:232-245 *)
Definition Db2_body (q2 q3 q4 : R) : R :=
  1 / 4 * (- 2 * q4 * (2 * (q2 + q3) - Rabs (q2 - q3 + q4) - Rabs (- q2 + q3 + q4))
           - 2 * q3 * (2 * q4 + Rabs (q2 - q3 + q4) - Rabs (- q2 + q3 + q4))
           + (- q2 + q3 + q4) ^ 2 * sgn (q2 - q3 - q4) - (q2 + q3 - q4) ^ 2 * sgn (q2 + q3 - q4)
           - (q2 - q3 + q4) ^ 2 * sgn (q2 - q3 + q4) + (q2 + q3 + q4) ^ 2 * 1
           + 2 * q3 * q4 * (sgn (q2 - q3 - q4) + sgn (q2 + q3 - q4) + sgn (q2 - q3 + q4) + 1)).
Definition Db2 (q2 q3 q4 : R) : R :=
  let '(q3, q4) := if Rlt_dec q3 q4 then (q4, q3) else (q3, q4) in Db2_body q2 q3 q4.

(* Ds.cpp:248-291 *)
Definition Db (p E m : nat -> R) (K1 K2 : R) (order : nat * nat * nat * nat) (sides : nat -> Z) : R :=
  let '(i, j, k, l) := order in
  let sisj := IZR (sides i * sides j) in
  let sksl := IZR (sides k * sides l) in
  0 + (if Req_EM_T K1 0 then 0 else
         K1 * (E 1%nat * E 2%nat * E 3%nat * Db1 (p 1%nat) (p 2%nat) (p 3%nat)
               + (if (i * j =? 0)%nat then sksl * E (i + j)%nat * Db2 (p (i + j)%nat) (p k) (p l)
                  else if (k * l =? 0)%nat then sisj * E (k + l)%nat * Db2 (p (k + l)%nat) (p i) (p j)
                  else 0)))
    + (if Req_EM_T K2 0 then 0 else
         K2 * (0 + (if (i * j =? 0)%nat
                    then m (i + j)%nat * (E k * E l * Db1 (p 1%nat) (p 2%nat) (p 3%nat) + sksl * Db2 (p (i + j)%nat) (p k) (p l))
                    else if (k * l =? 0)%nat then m i * m j * E (k + l)%nat * Db1 (p 1%nat) (p 2%nat) (p 3%nat)
                    else 0))).
