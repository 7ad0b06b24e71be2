(* C128: UNITS of common/__init__.py against the measured constants that
   numericalunits carries, for every energy unit and every base units. *)
From Coq Require Import Reals QArith Qreals List String ZArith Lra Lia.
From Verif Require Import NumUnitsModel NumUnitsSpec NumUnitsProofs UnitsModel.
Import ListNotations.
Local Open Scope string_scope.

(* a second, a kilogram, 10^9 K, a newton and g/cm^3 as powers of MeV or GeV,
   hbar = c = kB = 1, with the number that UNITS assigns *)
Definition natural : list (expr * expr * Q) := [
  (V "MeV" *e V "s" /e V "hbar", ENum (10000000000000000000000 / (6582119 # 1000000)), 1 # 10000);
  (V "kg" *e V "c0" ^e 2 /e V "GeV", ENum (1000000000000000000000000000 / (1782662 # 1000000)), 1 # 1000000);
  (V "kB" *e (ENum 1000000000 *e V "K") /e V "MeV", ENum (1 / (116045 # 10000)), 1 # 100000);
  (V "N" *e V "hbar" *e V "c0" /e V "GeV" ^e 2, ENum (1 / (819 # 1) / 1000), 1 # 100);
  (V "g" *e V "c0" ^e 2 *e (V "hbar" *e V "c0") ^e 3 /e (V "cm" ^e 3 *e V "MeV" ^e 4), ENum (1 / (23201157500 # 100000)), 1 # 1000);
  (V "m" *e V "GeV" /e (V "hbar" *e V "c0"), n_ 2 *e EPi *e ENum (1000000000000000 / (1239842 # 1000000)), 1 # 10000)].

Open Scope R_scope.
(* the numbers above are the ones of UNITS *)
Definition unit_number (u : units) : list R :=
  [sec u * UnitsModel.MeV u; kg u / UnitsModel.GeV u; K9 u / UnitsModel.MeV u; newton u / UnitsModel.GeV u ^ 2;
   g_cm3 u / UnitsModel.MeV u ^ 4; metre u * UnitsModel.GeV u].
Definition measured : list expr := map (fun t => fst (fst t)) natural.

(* Seconds, kilograms and kelvins agree to 1e-4, densities to 1e-3, the newton
   to 1e-2; the metre is too short by a factor 2 pi. *)
Theorem C128_measured : forall ev b g i e n, 0 < ev -> bpos b -> set_derived b = Some g ->
  nth_error measured i = Some e -> nth_error (unit_number (UnitsModel.reset_units ev)) i = Some n ->
  exists x, eval g e = Some x /\ 0 < n /\
   ((i < 5)%nat -> Rabs (x / n - 1) <= 1 / 100) /\ ((i < 3)%nat -> Rabs (x / n - 1) <= 1 / 10000) /\
   (i = 4%nat -> Rabs (x / n - 1) <= 1 / 1000) /\ (i = 5%nat -> Rabs (x / (2 * PI * n) - 1) <= 1 / 10000).
Proof.
  intros ev b g i e n Hev Hb Hg He Hn.
  assert (OK : rels_ok natural = true) by (vm_compute; reflexivity).
  pose proof (rels_sound natural b g OK Hb Hg) as RS. clear OK.
  assert (GEN : forall t, nth_error natural i = Some t -> exists x y, eval g (fst (fst t)) = Some x /\ eval g (snd (fst t)) = Some y /\ 0 < y /\ Rabs (x / y - 1) <= Q2R (snd t)).
  { intros [[l r] tol] Ht. exact (RS l r tol (nth_error_In _ _ Ht)). }
  unfold unit_number, UnitsModel.reset_units in Hn. cbn [sec UnitsModel.MeV kg UnitsModel.GeV K9 newton g_cm3 metre] in Hn.
  destruct i as [|[|[|[|[|[|i]]]]]]; cbn [nth_error] in Hn; try (injection Hn as Hn);
    try (destruct (GEN _ eq_refl) as (x & y & Ex & Ey & Py & B); cbn [fst snd] in *; injection He as <-; exists x; cbn [eval n_] in Ey; injection Ey as Ey).
  7:{ destruct i; discriminate. }
  1-5: assert (Yn : y = n) by (rewrite <- Hn, <- Ey; unfold Q2R; cbn; field; lra); clear Ey Hn; subst y.
  1-5: split; [exact Ex|]; split; [exact Py|]; unfold Q2R in B; cbn [Qnum Qden] in B;
    repeat split; intros Hi; try discriminate Hi; try (exfalso; lia); lra.
  assert (Yn : y = 2 * PI * n) by (rewrite <- Hn, <- Ey; unfold Q2R; cbn -[PI]; field; lra). clear Ey Hn. subst y.
  split; [exact Ex|]. split; [pose proof PI_RGT_0; apply (Rmult_lt_reg_l (2 * PI)); lra|]. unfold Q2R in B; cbn [Qnum Qden] in B.
  repeat split; intros Hi; try discriminate Hi; try (exfalso; lia); lra.
Qed.
Print Assumptions C128_measured.

(* the second in SI units, with the energy unit of the module *)
Example C128_measured_case : let u := UnitsModel.reset_units (/ 10 ^ 9) in exists g x, set_derived (mkbases 1 1 1 1 1) = Some g /\
  eval g (V "MeV" *e V "s" /e V "hbar") = Some x /\ Rabs (x / (sec u * UnitsModel.MeV u) - 1) <= 1 / 10000.
Proof.
  intros u. assert (P : bpos (mkbases 1 1 1 1 1)) by (unfold bpos; cbn; lra).
  destruct (rows_sound _ P) as (g & E & _).
  assert (H : 0 < / 10 ^ 9) by (apply Rinv_0_lt_compat; lra).
  destruct (C128_measured (/ 10 ^ 9) _ g 0 _ _ H P E eq_refl eq_refl) as (x & Ex & _ & _ & B & _).
  exists g, x. split; [exact E|]. split; [exact Ex|]. apply B. lia.
Qed.
