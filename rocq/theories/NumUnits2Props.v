(* C189: where the base units of reset_units come from. *)
From Coq Require Import Reals QArith Qreals List String ZArith Lra.
From Verif Require Import NumUnitsModel NumUnitsSpec NumUnitsProofs NumUnitsProps.
Import ListNotations.
Local Open Scope string_scope.
Local Open Scope R_scope.

(* the state of a generator after n numbers, and the number that follows *)
Fixpoint after {G} (next : G -> R * G) (n : nat) (g : G) : G :=
  match n with O => g | S k => snd (next (after next k g)) end.
Definition number {G} (next : G -> R * G) (n : nat) (g : G) : R := fst (next (after next n g)).

(* metre, kilogram, second, coulomb and kelvin are ten to the first five
   consecutive numbers of a generator seeded with the argument, or by the
   operating system without one; never of the program's own sequence. *)
Theorem C189_draws : forall (G : Type) (reseed : Z -> G) (entropy : G) (uniform : R -> R -> G -> R * G) sd lo hi g g0,
  (sd = SeedNone /\ g0 = entropy \/ exists n, sd = SeedNum n /\ g0 = reseed n) ->
  exists v, fst (reset_units reseed entropy uniform sd lo hi g) = Some v /\
  forall i x, nth_error ["m"; "kg"; "s"; "C"; "K"] i = Some x ->
    lookup x v = Some (Rpower 10 (number (uniform lo hi) i g0)).
Proof.
  intros G reseed entropy uniform sd lo hi g g0 Hs.
  set (b := draw_bases uniform lo hi g0).
  assert (Eb : b = mkbases (Rpower 10 (number (uniform lo hi) 0 g0)) (Rpower 10 (number (uniform lo hi) 1 g0))
    (Rpower 10 (number (uniform lo hi) 2 g0)) (Rpower 10 (number (uniform lo hi) 3 g0)) (Rpower 10 (number (uniform lo hi) 4 g0))).
  { unfold b, draw_bases, draw, number. cbn [after].
    destruct (uniform lo hi g0) as [u1 g1]. cbn [fst snd]. destruct (uniform lo hi g1) as [u2 g2]. cbn [fst snd].
    destruct (uniform lo hi g2) as [u3 g3]. cbn [fst snd]. destruct (uniform lo hi g3) as [u4 g4]. cbn [fst snd].
    destruct (uniform lo hi g4) as [u5 g5]. reflexivity. }
  assert (Hb : bpos b) by (rewrite Eb; unfold bpos; cbn [b_m b_kg b_s b_C b_K]; unfold Rpower; repeat split; apply exp_pos).
  destruct (rows_sound b Hb) as (v & E & Ha & _). exists v. split.
  { destruct Hs as [[-> ->]|(n & -> & ->)]; exact E. }
  assert (R1 : In (mkrow "m" 1 0 length_) table) by (apply (row_in "m"); vm_compute; reflexivity).
  assert (R2 : In (mkrow "kg" 1 0 mass_) table) by (apply (row_in "kg"); vm_compute; reflexivity).
  assert (R3 : In (mkrow "s" 1 0 time_) table) by (apply (row_in "s"); vm_compute; reflexivity).
  assert (R4 : In (mkrow "C" 1 0 charge_) table) by (apply (row_in "C"); vm_compute; reflexivity).
  assert (R5 : In (mkrow "K" 1 0 temperature_) table) by (apply (row_in "K"); vm_compute; reflexivity).
  assert (Q1 : Q2R 1 = 1) by (unfold Q2R; cbn; lra).
  assert (P : forall x, powerRZ x 1 = x) by (intros x; cbn [powerRZ]; apply pow_1).
  intros i x Hi. destruct i as [|[|[|[|[|i]]]]]; cbn [nth_error] in Hi; try (injection Hi as <-).
  - rewrite (Ha _ R1 : lookup "m" v = _). f_equal. unfold row_val, dval; cbn [r_q r_pi r_dim length_ d_m d_kg d_s d_C d_K].
    rewrite Eb, Q1; cbn [b_m b_kg b_s b_C b_K]; rewrite P, !powerRZ_O. ring.
  - rewrite (Ha _ R2 : lookup "kg" v = _). f_equal. unfold row_val, dval; cbn [r_q r_pi r_dim mass_ d_m d_kg d_s d_C d_K].
    rewrite Eb, Q1; cbn [b_m b_kg b_s b_C b_K]; rewrite P, !powerRZ_O. ring.
  - rewrite (Ha _ R3 : lookup "s" v = _). f_equal. unfold row_val, dval; cbn [r_q r_pi r_dim time_ d_m d_kg d_s d_C d_K].
    rewrite Eb, Q1; cbn [b_m b_kg b_s b_C b_K]; rewrite P, !powerRZ_O. ring.
  - rewrite (Ha _ R4 : lookup "C" v = _). f_equal. unfold row_val, dval; cbn [r_q r_pi r_dim charge_ d_m d_kg d_s d_C d_K].
    rewrite Eb, Q1; cbn [b_m b_kg b_s b_C b_K]; rewrite P, !powerRZ_O. ring.
  - rewrite (Ha _ R5 : lookup "K" v = _). f_equal. unfold row_val, dval; cbn [r_q r_pi r_dim temperature_ d_m d_kg d_s d_C d_K].
    rewrite Eb, Q1; cbn [b_m b_kg b_s b_C b_K]; rewrite P, !powerRZ_O. ring.
  - destruct i; discriminate.
Qed.
Print Assumptions C189_draws.

(* a counter as generator, seeded with 0: the second is 10^2 *)
Example C189_draws_case : exists v,
  fst (reset_units (fun n => IZR n) 7 (fun _ _ g => (g, g + 1)) (SeedNum 0) (-1) 1 42) = Some v /\ lookup "s" v = Some (Rpower 10 (0 + 1 + 1)).
Proof.
  destruct (C189_draws R (fun n => IZR n) 7 (fun _ _ g => (g, g + 1)) (SeedNum 0) (-1) 1 42 0) as (v & E & H).
  - right. exists 0%Z. split; reflexivity.
  - exists v. split; [exact E|]. exact (H 2%nat "s" eq_refl).
Qed.
