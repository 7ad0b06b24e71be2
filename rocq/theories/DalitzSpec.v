(* Textbook rate of the decay of a particle at rest into three products. *)
From Coq Require Import Reals.
From Coquelicot Require Import Coquelicot.
Open Scope R_scope.

Definition kallen (x y z : R) : R := x ^ 2 + y ^ 2 + z ^ 2 - 2 * x * y - 2 * x * z - 2 * y * z.
(* the width, in the squared mass of products 2 and 3, of the Dalitz region at
   squared mass s of products 1 and 2; the third product has mass c *)
Definition dalitz_width (m a b c s : R) : R := sqrt (kallen (m ^ 2) s (c ^ 2) * kallen s (a ^ 2) (b ^ 2)) / s.
Definition dalitz_area_is (m a b c A : R) : Prop := is_RInt (dalitz_width m a b c) ((a + b) ^ 2) ((m - c) ^ 2) A.
(* constant squared amplitude K *)
Definition three_body_rate (K A m : R) : R := K * A / ((2 * PI) ^ 3 * 32 * m ^ 3).
