(* Textbook kinematics and rate of the decay at rest of a particle of mass ms 0
   into three particles of masses ms 1, ms 2, ms 3. *)
From Coq Require Import Reals.
From Coquelicot Require Import Coquelicot.
From Verif Require Import Base BoundsModel DalitzSpec.
Open Scope R_scope.

(* energies of the products: that of the third is what remains *)
Definition share (m e1 e2 : R) (i : nat) : R := match i with 1%nat => e1 | 2%nat => e2 | _ => m - e1 - e2 end.
(* squared mass of the system of the two other products *)
Definition recoil (m mi ei : R) : R := m ^ 2 + mi ^ 2 - 2 * m * ei.
(* products of four-momenta *)
Definition four_dot (ms e : nat -> R) (i j : nat) : R :=
  if (i =? 0)%nat then ms 0%nat * e j else if (j =? 0)%nat then ms 0%nat * e i
  else (recoil (ms 0%nat) (ms (6 - i - j)%nat) (e (6 - i - j)%nat) - ms i ^ 2 - ms j ^ 2) / 2.
(* sum of K1 (pi.pj)(pk.pl) + K2 mi mj (pk.pl) *)
Definition amplitude_at (ms : nat -> R) (Ms : list matrix_element) (e1 e2 : R) : R :=
  fold_right (fun A s => let '(i, j, k, l) := order A in let d := four_dot ms (share (ms 0%nat) e1 e2) in
                         K1 A * d i j * d k l + K2 A * ms i * ms j * d k l + s) 0 Ms.
(* the Dalitz region: limits of the energy of product 1, and of product 2 given it *)
Definition e1_max (ms : nat -> R) : R := (ms 0%nat ^ 2 + ms 1%nat ^ 2 - (ms 2%nat + ms 3%nat) ^ 2) / (2 * ms 0%nat).
Definition e2_mid (ms : nat -> R) (e1 : R) : R :=
  let s := recoil (ms 0%nat) (ms 1%nat) e1 in (ms 0%nat - e1) * (s + ms 2%nat ^ 2 - ms 3%nat ^ 2) / (2 * s).
Definition e2_half (ms : nat -> R) (e1 : R) : R :=
  let s := recoil (ms 0%nat) (ms 1%nat) e1 in sqrt (e1 ^ 2 - ms 1%nat ^ 2) * sqrt (kallen s (ms 2%nat ^ 2) (ms 3%nat ^ 2)) / (2 * s).
Definition region_is (ms : nat -> R) (amp : R -> R -> R) (I : R) : Prop :=
  exists g, (forall e1, ms 1%nat < e1 < e1_max ms -> is_RInt (amp e1) (e2_mid ms e1 - e2_half ms e1) (e2_mid ms e1 + e2_half ms e1) (g e1)) /\
            is_RInt g (ms 1%nat) (e1_max ms) I.
Definition massive_rate_is (ms : nat -> R) (amp : R -> R -> R) (G : R) : Prop :=
  exists I, region_is ms amp I /\ G = I / ((2 * PI) ^ 3 * (8 * ms 0%nat)).
