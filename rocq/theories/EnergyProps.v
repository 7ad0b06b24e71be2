(* C143: the energy balance of the decay of a sterile neutrino into three neutrinos. *)
From Coq Require Import Reals Lra Psatz.
From Coquelicot Require Import Coquelicot.
From Verif Require Import Base FunctionalModel CrossModel CrossProofs LibModel LibProofs Lib2Proofs ParamsModel MatrixModel KinemModel RelabelProofs LedgerProofs LedgerProps Decay4Proofs Decay4Props EnergyProofs.
Open Scope R_scope.
Local Notation length := List.length.

(* N -> a b anti-b: the two interactions with their matrix elements
   (sterile_leptons_interactions_M lists them like this, see C144_library) *)
Definition neutrinos_M (n : lib) (theta : R) (a b : lib) : list (inter * list mel) :=
  combine (scattering_pair n a b) [fst (sterile_scattering_Ms theta a b); snd (sterile_scattering_Ms theta a b)].
Definition gain (maj : bool) (a b : lib) : R := (if maj then 2 else 1) * (if (sid (sp a) =? sid (sp b))%nat then 9 / 10 else 19 / 20).

Definition sorted_events (maj : bool) (sel : list (list item) -> list (list item)) (a b : lib) : list (list nat * list item) :=
  match map snd (scattering_pair (N0 maj) a b) with
  | [r0; r1] => map (pair [0; 1; 2; 3]%nat) (sel r0) ++ map (pair [2; 3; 0; 1]%nat) (sel r1)
  | _ => []
  end.
Lemma neutrinos_events maj id M theta a b sel sel0 : 
  map snd (scattering_pair (NN maj id M) a b) = map (map (map (relabel (swap id M)))) (map snd (scattering_pair (N0 maj) a b)) ->
  (forall rs, sel (map (map (relabel (swap id M))) rs) = map (map (relabel (swap id M))) (sel0 rs)) ->
  exists K1 K2, events sel (neutrinos_M (NN maj id M) theta a b) = map (lifted id M K1 K2) (sorted_events maj sel0 a b) /\
                K1 = (if (sid (sp a) =? sid (sp b))%nat then 2 else 1) * (32 * G_Fermi ^ 2) * theta ^ 2 /\ K2 = 0 * (32 * G_Fermi ^ 2) * theta ^ 2.
Proof.
  intros HS Hsel. do 2 eexists. split; [|split; reflexivity].
  unfold sorted_events, neutrinos_M. unfold scattering_pair in *. cbn [sterile_active_scattering map snd] in HS |- *. cbn [combine]. unfold events. cbn [flat_map snd fst plain] in HS |- *.
  injection HS. intros E1 E0. unfold plain in *. cbn [snd] in *. rewrite E1, E0, !Hsel, !map_app, !map_map, app_nil_r. reflexivity.
Qed.
Lemma lone_same n n' names : lname n = lname n' -> lone n names = lone n' names.
Proof. intros H. unfold lone. now rewrite H. Qed.

Lemma energy_balance maj ks id M theta a b : let n := NN maj id M in In a SM_neutrinos -> In b SM_neutrinos -> (27 <= id)%nat -> (0 < M)%Z -> sees ks (company n) ->
  let m := mass n in
  let rate := (if (sid (sp a) =? sid (sp b))%nat then 2 else 1) * (32 * G_Fermi ^ 2) * theta ^ 2 * m ^ 6 / (12288 * PI ^ 3) in
  energy_lost ks n m (neutrinos_M n theta a b) ((if maj then 1 else 2) * rate) /\
  energy_gained ks n m (neutrinos_M n theta a b) [a; b; b] (gain maj a b * ((if maj then 1 else 2) * rate)).
Proof.
  intros n Ha Hb Hid HM HS m rate.
  assert (Hm : 0 < m).
  { unfold m, mass. apply Rmult_lt_0_compat; [|unfold eV; apply Rinv_0_lt_compat, pow_lt; lra]. apply IZR_lt. unfold n, NN. destruct maj; exact HM. }
  assert (HC : has_N0 (fst (sterile_active_scattering (N0 maj) a b)) && has_N0 (snd (sterile_active_scattering (N0 maj) a b)) = true /\
      masses (others_of (fst (sterile_active_scattering (N0 maj) a b))) = 0%Z /\ masses (others_of (snd (sterile_active_scattering (N0 maj) a b))) = 0%Z).
  { clear -Ha Hb. each Ha; each Hb; destruct maj; vm_compute; auto. }
  destruct HC as (HC & M1 & M2).
  assert (HSw := scattering_swap2 maj id M a b (SM_unswapped id M a (neutrinos_in a Ha)) (SM_unswapped id M b (neutrinos_in b Hb)) Hid HC ltac:(now rewrite M1) ltac:(now rewrite M2)).
  assert (HL : lname (NN maj id M) = lname (N0 maj)) by (now destruct maj).
  assert (HD : forall rs, decays_of (NN maj id M) (map (map (relabel (swap id M))) rs) = map (map (relabel (swap id M))) (decays_of (N0 maj) rs)).
  { intros rs. unfold decays_of. rewrite filter_relabel by (intros r; rewrite side_names_relabel by apply swap_kind; reflexivity).
    f_equal. apply filter_ext. intros r. now apply lone_same. }
  assert (HCr : forall s rs, creations_of (NN maj id M) s (map (map (relabel (swap id M))) rs) = map (map (relabel (swap id M))) (creations_of (N0 maj) s rs)).
  { intros s rs. unfold creations_of. rewrite filter_relabel by (intros r; rewrite side_names_relabel, first_name_relabel by apply swap_kind; reflexivity).
    f_equal. apply filter_ext. intros r. f_equal. now apply lone_same. }
  set (K1 := (if (sid (sp a) =? sid (sp b))%nat then 2 else 1) * (32 * G_Fermi ^ 2) * theta ^ 2).
  set (K2 := 0 * (32 * G_Fermi ^ 2) * theta ^ 2).
  pose proof PI_RGT_0 as HPI. split.
  - unfold energy_lost. change n with (NN maj id M). destruct (neutrinos_events maj id M theta a b _ _ HSw HD) as (k1 & k2 & -> & -> & ->). fold K1 K2.
    assert (HE : forallb (echeck maj) (sorted_events maj (decays_of (N0 maj)) a b) && (evalues maj (sorted_events maj (decays_of (N0 maj)) a b) =? (if maj then 20 else 40))%nat = true).
    { clear -Ha Hb. each Ha; each Hb; destruct maj; vm_compute; reflexivity. }
    apply andb_prop in HE. destruct HE as [HE HV]. apply Nat.eqb_eq in HV.
    pose proof (events_lift maj id M ks m K1 K2 _ Hm HS Hid HE) as HT. rewrite HV in HT.
    replace ((if maj then 1 else 2) * rate) with (K1 * m ^ 6 / (12288 * PI ^ 3) * (INR (if maj then 20 else 40) / 20)); [exact HT|].
    unfold rate. fold K1. destruct maj; rewrite INR_IZR_INZ; cbn [Z.of_nat Pos.of_succ_nat Pos.succ]; field; lra.
  - unfold energy_gained.
    set (all0 := flat_map (fun s => sorted_events maj (creations_of (N0 maj) s) a b) (distinct [a; b; b])).
    assert (HA : flat_map (fun s => events (creations_of (NN maj id M) s) (neutrinos_M (NN maj id M) theta a b)) (distinct [a; b; b]) = map (lifted id M K1 K2) all0).
    { unfold all0. induction (distinct [a; b; b]) as [|s l IH]; [reflexivity|]. cbn [flat_map]. rewrite map_app, IH. f_equal.
      destruct (neutrinos_events maj id M theta a b _ _ HSw (HCr s)) as (k1 & k2 & -> & -> & ->). reflexivity. }
    fold n in HA. rewrite HA.
    assert (HE : forallb (echeck maj) all0 && (evalues maj all0 =? (if (sid (sp a) =? sid (sp b)) then 36 else 38))%nat = true).
    { unfold all0. clear -Ha Hb. each Ha; each Hb; destruct maj; vm_compute; reflexivity. }
    apply andb_prop in HE. destruct HE as [HE HV]. apply Nat.eqb_eq in HV.
    pose proof (events_lift maj id M ks m K1 K2 _ Hm HS Hid HE) as HT. rewrite HV in HT.
    match goal with |- total _ _ ?x => replace x with (K1 * m ^ 6 / (12288 * PI ^ 3) * (INR (if (sid (sp a) =? sid (sp b)) then 36 else 38)%nat / 20)); [exact HT|] end.
    unfold gain, rate. fold K1. destruct maj, (sid (sp a) =? sid (sp b))%nat; rewrite INR_IZR_INZ; cbn [Z.of_nat Pos.of_succ_nat Pos.succ]; field; lra.
Qed.

Lemma G_Fermi_pos : 0 < G_Fermi.
Proof. unfold G_Fermi, MeV, eV. lra. Qed.

(* C143. The energy that the three neutrinos gain is not the energy that the
   sterile neutrinos lose: the pair (b, anti-b) is filled from the spectrum of one
   of its two members only, the one that takes 3/10 of the mass instead of 7/20. *)
Theorem C143_energy_refuted : forall maj ks id M theta a b, let n := if maj : bool then sterile_neutrino id M else dirac_sterile_neutrino id M in
  In a SM_neutrinos -> In b SM_neutrinos -> (27 <= id)%nat -> (0 < M)%Z -> theta <> 0 -> sees ks (company n) ->
  exists L G, energy_lost ks n (mass n) (neutrinos_M n theta a b) L /\ energy_gained ks n (mass n) (neutrinos_M n theta a b) [a; b; b] G /\ 0 < L /\
    G = (if maj then 2 else 1) * (if (sid (sp a) =? sid (sp b))%nat then 9 / 10 else 19 / 20) * L.
Proof.
  intros maj ks id M theta a b n Ha Hb Hid HM Ht HS. destruct (energy_balance maj ks id M theta a b Ha Hb Hid HM HS) as [HL HG].
  do 2 eexists. split; [exact HL|]. split; [exact HG|]. split; [|reflexivity].
  assert (Hm : 0 < mass (NN maj id M)).
  { unfold mass. apply Rmult_lt_0_compat; [|unfold eV; apply Rinv_0_lt_compat, pow_lt; lra]. apply IZR_lt. unfold NN. destruct maj; exact HM. }
  pose proof PI_RGT_0 as HPI. apply Rmult_lt_0_compat; [destruct maj; lra|]. apply Rdiv_lt_0_compat; [|apply Rmult_lt_0_compat; [lra|now apply pow_lt]].
  apply Rmult_lt_0_compat; [|now apply pow_lt]. apply Rmult_lt_0_compat; [|now apply pow2_gt_0]. apply Rmult_lt_0_compat; [destruct (sid (sp a) =? sid (sp b))%nat; lra|].
  apply Rmult_lt_0_compat; [lra|]. apply pow_lt, G_Fermi_pos.
Qed.
Print Assumptions C143_energy_refuted.
(* no amount of energy is both lost and gained *)
Theorem C143_refuted : forall maj ks id M theta a b, let n := if maj : bool then sterile_neutrino id M else dirac_sterile_neutrino id M in
  In a SM_neutrinos -> In b SM_neutrinos -> (27 <= id)%nat -> (0 < M)%Z -> theta <> 0 -> sees ks (company n) ->
  ~ exists E, energy_lost ks n (mass n) (neutrinos_M n theta a b) E /\ energy_gained ks n (mass n) (neutrinos_M n theta a b) [a; b; b] E.
Proof.
  intros maj ks id M theta a b n Ha Hb Hid HM Ht HS (E & HL' & HG'). destruct (C143_energy_refuted maj ks id M theta a b Ha Hb Hid HM Ht HS) as (L & G & HL & HG & Hp & HE).
  assert (Hm : 0 < mass n).
  { unfold mass. apply Rmult_lt_0_compat; [|unfold eV; apply Rinv_0_lt_compat, pow_lt; lra]. apply IZR_lt. unfold n. destruct maj; exact HM. }
  assert (HU : forall e x y, energy_of ks n (mass n) e x -> energy_of ks n (mass n) e y -> x = y) by (intros; now apply (energy_of_unique ks n (mass n) e)).
  pose proof (total_unique _ _ _ _ HU HL HL') as E1. pose proof (total_unique _ _ _ _ HU HG HG') as E2. subst L G.
  destruct maj, (sid (sp a) =? sid (sp b))%nat; lra.
Qed.
Print Assumptions C143_refuted.
Example C143_example : let n := dirac_sterile_neutrino 40 (10 ^ 9)%Z in
  sees ex_ks (company n) /\ In neutrino_mu SM_neutrinos /\ length (events (decays_of n) (neutrinos_M n 1 neutrino_e neutrino_mu)) = 1%nat /\
  length (events (creations_of n neutrino_e) (neutrinos_M n 1 neutrino_e neutrino_mu)) = 1%nat /\ length (events (creations_of n neutrino_mu) (neutrinos_M n 1 neutrino_e neutrino_mu)) = 1%nat.
Proof.
  intros n. split; [apply ex_sees; now left|]. split; [right; now left|]. unfold events, neutrinos_M. cbn [flat_map combine]. 
  split; [|split]; vm_compute; reflexivity.
Qed.
