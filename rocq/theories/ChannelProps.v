(* C144: widths of sterile neutrinos. *)
From Coq Require Import Reals Lra Psatz.
From Coquelicot Require Import Coquelicot.
From Verif Require Import Base FunctionalModel CrossModel CrossProofs LibModel LibProofs Lib2Proofs ParamsModel MatrixModel KinemModel RelabelProofs LedgerProofs LedgerProps Decay4Proofs Decay4Props EnergyProofs EnergyProps ChannelProofs.
Open Scope R_scope.
Local Notation length := List.length.

(* Specification. s = sin^2 theta_W. The width of a sterile neutrino of mass m,
   mixing angle theta with one flavour, is G_F^2 m^5 theta^2 / (192 pi^3) times the
   coefficient of the channel (products much lighter than m), for a Dirac
   particle; a Majorana particle decays into the conjugate channels as well. *)
Definition unit_width (m theta : R) : R := G_Fermi ^ 2 * m ^ 5 * theta ^ 2 / (192 * PI ^ 3).
Definition pair_coefficient (same_flavour : bool) : R := let s := sin_theta_w_2 in (1 + (if same_flavour then 4 else -4) * s + 8 * s ^ 2) / 4.
Definition quark_coefficient (q : lib) : R :=
  let s := sin_theta_w_2 in if (Q3 q =? 2)%Z then (1 - 8 / 3 * s + 32 / 9 * s ^ 2) / 4 else (1 - 4 / 3 * s + 8 / 9 * s ^ 2) / 4.
Definition colours : R := 3.

(* the leptonic channels as the library gives them, with their coefficients *)
Inductive lepton_channel (n : lib) (theta : R) : list (inter * list mel) -> list lib -> R -> Prop :=
| of_neutrinos a : In a SM_neutrinos -> lepton_channel n theta (flat_map (neutrinos_M n theta a) SM_neutrinos) [] 1
| of_pair v l : In v SM_neutrinos -> In l SM_leptons ->
    lepton_channel n theta (combine (nc_pair n v l) [sterile_NC_Ms theta (g_L_of l v); sterile_NC_Ms theta (g_L_of l v)]) [v; l; l] (pair_coefficient (flav_eqb (flav l) (flav v)))
| of_current v l ol : In v SM_neutrinos -> In l SM_leptons -> In ol SM_leptons -> l <> ol -> flav v = flav ol ->
    lepton_channel n theta (combine (cc_pair n v l ol) [sterile_CC_Ms theta; sterile_CC_Ms theta]) [v; l; ol] 1.
(* the channels with quarks *)
Inductive quark_channel (n : lib) (theta : R) : list (inter * list mel) -> list lib -> R -> Prop :=
| of_quarks v q Ms : In v SM_neutrinos -> In q SM_quarks -> quark_neutral_Ms theta q = Ok Ms ->
    quark_channel n theta [(plain (sterile_quark_neutral n v q), Ms)] [v; q; q] (colours * quark_coefficient q)
| of_up_down l u d V Ms : In l SM_leptons -> In u SM_quarks -> In d SM_quarks -> Q3 u = 2%Z -> Q3 d = (-1)%Z -> CKM (family u) (family d) = Ok V -> quark_charged_Ms theta u d = Ok Ms ->
    quark_channel n theta [(plain (sterile_quark_charged n l u d), Ms)] [l; u; d] (colours * V ^ 2).

Lemma nc_swap2 maj id M n l : swap id M (sp n) = sp n -> swap id M (sp l) = sp l -> (27 <= id)%nat ->
  has_N0 (fst (sterile_NC (N0 maj) n l)) && has_N0 (snd (sterile_NC (N0 maj) n l)) = true ->
  (masses (others_of (fst (sterile_NC (N0 maj) n l))) < M)%Z -> (masses (others_of (snd (sterile_NC (N0 maj) n l))) < M)%Z ->
  map snd (nc_pair (NN maj id M) n l) = map (map (map (relabel (swap id M)))) (map snd (nc_pair (N0 maj) n l)).
Proof.
  intros En El Hid HH HM0 HM1. apply andb_prop in HH. destruct HH as [H0 H1].
  assert (S0 : swapped id M (fst (sterile_NC (N0 maj) n l)) (fst (sterile_NC (NN maj id M) n l))).
  { split; [reflexivity|]. unfold species_of, sterile_NC, tmpl22. cbn [tparts fst snd map]. now rewrite swap_N0, En, El. }
  assert (S1 : swapped id M (snd (sterile_NC (N0 maj) n l)) (snd (sterile_NC (NN maj id M) n l))).
  { split; [reflexivity|]. unfold species_of, sterile_NC, tmpl22. cbn [tparts fst snd map]. now rewrite swap_N0, En, El. }
  apply (reactions_swap id M _ _ H0) in S0; try assumption. apply (reactions_swap id M _ _ H1) in S1; try assumption.
  assert (HL : lname (NN maj id M) = lname (N0 maj)) by (now destruct maj).
  assert (HK : forall r, nc_keep (NN maj id M) l (map (relabel (swap id M)) r) = nc_keep (N0 maj) l r).
  { intros r. unfold nc_keep. now rewrite first_name_relabel, count_name_relabel, HL by apply swap_kind. }
  unfold nc_pair, sterile_NC in *. cbn [fst snd] in *. unfold plain.
  destruct (String.eqb (lname l) "Muon" || String.eqb (lname l) "Tau")%bool; cbn [map snd]; rewrite S0, S1; [|reflexivity]. f_equal; [|f_equal].
  - now apply filter_map_comm.
  - rewrite (filter_map_comm (map (relabel (swap id M))) _ _ (reactions_of _) HK). apply filter_relabel. intros r. now rewrite first_name_relabel by apply swap_kind.
Qed.
Lemma cc_swap2 maj id M n l ol : swap id M (sp n) = sp n -> swap id M (sp l) = sp l -> swap id M (sp ol) = sp ol -> (27 <= id)%nat ->
  has_N0 (fst (sterile_CC (N0 maj) n l ol)) && has_N0 (snd (sterile_CC (N0 maj) n l ol)) = true ->
  (masses (others_of (fst (sterile_CC (N0 maj) n l ol))) < M)%Z -> (masses (others_of (snd (sterile_CC (N0 maj) n l ol))) < M)%Z ->
  map snd (cc_pair (NN maj id M) n l ol) = map (map (map (relabel (swap id M)))) (map snd (cc_pair (N0 maj) n l ol)).
Proof.
  intros En El Eo Hid HH HM0 HM1. apply andb_prop in HH. destruct HH as [H0 H1].
  assert (S0 : swapped id M (fst (sterile_CC (N0 maj) n l ol)) (fst (sterile_CC (NN maj id M) n l ol))).
  { split; [reflexivity|]. unfold species_of, sterile_CC, tmpl22. cbn [tparts fst snd map]. now rewrite swap_N0, En, El, Eo. }
  assert (S1 : swapped id M (snd (sterile_CC (N0 maj) n l ol)) (snd (sterile_CC (NN maj id M) n l ol))).
  { split; [reflexivity|]. unfold species_of, sterile_CC, tmpl22. cbn [tparts fst snd map]. now rewrite swap_N0, En, El, Eo. }
  apply (reactions_swap id M _ _ H0) in S0; try assumption. apply (reactions_swap id M _ _ H1) in S1; try assumption.
  assert (HL : lname (NN maj id M) = lname (N0 maj)) by (now destruct maj).
  assert (HK : forall r, cc_keep (NN maj id M) ol (map (relabel (swap id M)) r) = cc_keep (N0 maj) ol r).
  { intros r. unfold cc_keep. rewrite HL. rewrite (filter_map_comm _ _ (fun it => String.eqb (sname (ispecie it)) (lname ol) || String.eqb (sname (ispecie it)) (lname (N0 maj)))%bool).
    - now rewrite map_map.
    - intros it. cbn [relabel ispecie]. now rewrite (proj1 (swap_kind id M _)). }
  unfold cc_pair, sterile_CC in *. cbn [fst snd] in *. cbn [map snd]. rewrite S0, S1. f_equal; [|f_equal]; now apply filter_map_comm.
Qed.
Lemma quark_swap maj id M x y z fa fb fc fd : swap id M (sp x) = sp x -> swap id M (sp y) = sp y -> swap id M (sp z) = sp z -> (27 <= id)%nat ->
  has_N0 (tmpl22 (N0 maj) x y z fa fb fc fd) = true -> (masses (others_of (tmpl22 (N0 maj) x y z fa fb fc fd)) < M)%Z ->
  reactions_of (tmpl22 (NN maj id M) x y z fa fb fc fd) = map (map (relabel (swap id M))) (reactions_of (tmpl22 (N0 maj) x y z fa fb fc fd)).
Proof.
  intros Ex Ey Ez Hid HH HM. apply reactions_swap; try assumption. split; [reflexivity|]. unfold species_of, tmpl22. cbn [tparts fst snd map]. now rewrite swap_N0, Ex, Ey, Ez.
Qed.

Lemma proper_sterile theta K1 K2 o : In (store_order o) std_orders -> weakly (fun o => In o std_orders) (sterileM theta K1 K2 o).
Proof. intros H. eexists _, _, _. split; [reflexivity|exact H]. Qed.
Ltac proper_tac := repeat (apply Forall_cons; [apply proper_sterile; cbn; tauto|]); apply Forall_nil.
Lemma mass_pos maj id M : (0 < M)%Z -> 0 < mass (NN maj id M).
Proof. intros HM. unfold mass. apply Rmult_lt_0_compat; [|unfold eV; apply Rinv_0_lt_compat, pow_lt; lra]. apply IZR_lt. unfold NN. destruct maj; exact HM. Qed.
Lemma snd_combine {A B C} (l : list (A * B)) (c : C) : length l = 2%nat -> map (fun i => snd (fst i)) (combine l [c; c]) = map snd l.
Proof. destruct l as [|a [|b [|]]]; intros H; try discriminate H. reflexivity. Qed.
Lemma combine_both {A C} (P : C -> Prop) (l : list A) c d : P c -> P d -> Forall (fun i => P (snd i)) (combine l [c; d]).
Proof. intros H H'. destruct l as [|a [|b [|e l]]]; cbn [combine]; repeat (apply Forall_cons; [assumption|]); apply Forall_nil. Qed.

Lemma three_width maj ks id M theta a b : In a SM_neutrinos -> In b SM_neutrinos -> (27 <= id)%nat -> (0 < M)%Z -> sees ks (crew (NN maj id M)) ->
  width ks (NN maj id M) (mass (NN maj id M)) (neutrinos_M (NN maj id M) theta a b)
    (INR (if maj then 1 else 2) / kdof (ks (sp (NN maj id M))) * ((if (sid (sp a) =? sid (sp b))%nat then 2 else 1) * (32 * G_Fermi ^ 2) * theta ^ 2 * mass (NN maj id M) ^ 5 / (12288 * PI ^ 3))).
Proof.
  intros Ha Hb Hid HM HS.
  assert (HC : has_N0 (fst (sterile_active_scattering (N0 maj) a b)) && has_N0 (snd (sterile_active_scattering (N0 maj) a b)) = true /\
      masses (others_of (fst (sterile_active_scattering (N0 maj) a b))) = 0%Z /\ masses (others_of (snd (sterile_active_scattering (N0 maj) a b))) = 0%Z).
  { clear -Ha Hb. each Ha; each Hb; destruct maj; vm_compute; auto. }
  destruct HC as (HC & M1 & M2).
  assert (HSw := scattering_swap2 maj id M a b (SM_unswapped id M a (neutrinos_in a Ha)) (SM_unswapped id M b (neutrinos_in b Hb)) Hid HC ltac:(now rewrite M1) ltac:(now rewrite M2)).
  refine (width_lift maj id M ks _ _ (map snd (scattering_pair (N0 maj) a b)) _ _ (mass_pos maj id M HM) HS Hid _ _ _).
  - rewrite <- HSw. unfold neutrinos_M, scattering_pair. reflexivity.
  - refine (combine_both (fun Ms => proper Ms /\ sumK Ms = _) _ _ _ _ _); (split; [proper_tac|]); cbn; ring.
  - clear -Ha Hb. each Ha; each Hb; destruct maj; vm_compute; reflexivity.
Qed.
Lemma width_app ks n m l l' x y : width ks n m l x -> width ks n m l' y -> width ks n m (l ++ l') (x + y).
Proof. intros H H'. unfold width, events. rewrite flat_map_app. now apply total_app. Qed.

Lemma lepton_width maj ks id M theta l products c : lepton_channel (NN maj id M) theta l products c -> (27 <= id)%nat -> (0 < M)%Z -> (sum_masses products < M)%Z ->
  sees ks (crew (NN maj id M)) -> kdof (ks (sp (NN maj id M))) = IZR (ldof (NN maj id M)) ->
  width ks (NN maj id M) (mass (NN maj id M)) l (c * unit_width (mass (NN maj id M)) theta).
Proof.
  intros HC Hid HM0 HM HS HD. pose proof PI_RGT_0 as HPI.
  assert (HR : forall S, INR (if maj then 1 else 2) / kdof (ks (sp (NN maj id M))) * S = S / 2).
  { intros S. rewrite HD. destruct maj; cbn; lra. }
  destruct HC as [a Ha|v l Hv Hl|v l ol Hv Hl Ho Hd Hf].
  - cbn [flat_map SM_neutrinos]. rewrite app_nil_r. unfold unit_width.
    assert (HT := fun b Hb => three_width maj ks id M theta a b Ha Hb Hid HM0 HS).
    pose proof (width_app _ _ _ _ _ _ _ (HT neutrino_e ltac:(cbn; auto)) (width_app _ _ _ _ _ _ _ (HT neutrino_mu ltac:(cbn; auto)) (HT neutrino_tau ltac:(cbn; auto)))) as HW.
    rewrite !HR in HW. match type of HW with width _ _ _ _ ?x => match goal with |- width _ _ _ _ ?y => replace y with x; [exact HW|] end end.
    clear -Ha HPI. each Ha; cbn [sid sp neutrino_e neutrino_mu neutrino_tau Nat.eqb]; field; lra.
  - assert (HC : has_N0 (fst (sterile_NC (N0 maj) v l)) && has_N0 (snd (sterile_NC (N0 maj) v l)) = true /\
      masses (others_of (fst (sterile_NC (N0 maj) v l))) = sum_masses [v; l; l] /\ masses (others_of (snd (sterile_NC (N0 maj) v l))) = sum_masses [v; l; l]).
    { clear -Hv Hl. each Hv; each Hl; destruct maj; vm_compute; auto. }
    destruct HC as (HC & M1 & M2).
    assert (HSw := nc_swap2 maj id M v l (SM_unswapped id M v (neutrinos_in v Hv)) (SM_unswapped id M l (leptons_in l Hl)) Hid HC ltac:(now rewrite M1) ltac:(now rewrite M2)).
    pose proof (width_lift maj id M ks (mass (NN maj id M)) (combine (nc_pair (NN maj id M) v l) [sterile_NC_Ms theta (g_L_of l v); sterile_NC_Ms theta (g_L_of l v)]) (map snd (nc_pair (N0 maj) v l))
      (4 * (g_L_of l v ^ 2 + g_R ^ 2) * (32 * G_Fermi ^ 2) * theta ^ 2) (if maj then 1 else 2) (mass_pos maj id M HM0) HS Hid) as HW.
    rewrite HR in HW. match goal with |- width _ _ _ _ ?y => match type of HW with _ -> _ -> _ -> width _ _ _ _ ?x => replace y with x end end.
    + apply HW.
      * refine (eq_trans (snd_combine _ _ _) HSw). unfold nc_pair, sterile_NC. now destruct (_ || _)%bool.
      * refine (combine_both (fun Ms => proper Ms /\ sumK Ms = _) _ _ _ _ _); (split; [proper_tac|]); cbn; ring.
      * clear -Hv Hl. each Hv; each Hl; destruct maj; vm_compute; reflexivity.
    + unfold unit_width, pair_coefficient, g_L_of, g_R. destruct (flav_eqb (flav l) (flav v)); field; lra.
  - assert (HC : has_N0 (fst (sterile_CC (N0 maj) v l ol)) && has_N0 (snd (sterile_CC (N0 maj) v l ol)) = true /\
      masses (others_of (fst (sterile_CC (N0 maj) v l ol))) = sum_masses [v; l; ol] /\ masses (others_of (snd (sterile_CC (N0 maj) v l ol))) = sum_masses [v; l; ol]).
    { clear -Hv Hl Ho. each Hv; each Hl; each Ho; destruct maj; vm_compute; auto. }
    destruct HC as (HC & M1 & M2).
    assert (HSw := cc_swap2 maj id M v l ol (SM_unswapped id M v (neutrinos_in v Hv)) (SM_unswapped id M l (leptons_in l Hl)) (SM_unswapped id M ol (leptons_in ol Ho)) Hid HC ltac:(now rewrite M1) ltac:(now rewrite M2)).
    pose proof (width_lift maj id M ks (mass (NN maj id M)) (combine (cc_pair (NN maj id M) v l ol) [sterile_CC_Ms theta; sterile_CC_Ms theta]) (map snd (cc_pair (N0 maj) v l ol))
      (4 * (32 * G_Fermi ^ 2) * theta ^ 2) (if maj then 1 else 2) (mass_pos maj id M HM0) HS Hid) as HW.
    rewrite HR in HW. match goal with |- width _ _ _ _ ?y => match type of HW with _ -> _ -> _ -> width _ _ _ _ ?x => replace y with x end end.
    + apply HW.
      * refine (eq_trans (snd_combine _ _ _) HSw). reflexivity.
      * refine (combine_both (fun Ms => proper Ms /\ sumK Ms = _) _ _ _ _ _); (split; [proper_tac|]); cbn; ring.
      * clear -Hv Hl Ho Hd Hf. each Ho; each Hv; try discriminate Hf; clear Hf; each Hl; try (exfalso; now apply Hd); clear Hd; destruct maj; vm_compute; reflexivity.
    + unfold unit_width. field. lra.
Qed.
Lemma in_all_quark q : In q SM_quarks -> In q SM_all.
Proof. intros H. unfold SM_all. rewrite !in_app_iff. auto. Qed.
Lemma in_all_neutrino q : In q SM_neutrinos -> In q SM_all.
Proof. intros H. unfold SM_all. rewrite !in_app_iff. auto. Qed.
Lemma in_all_lepton q : In q SM_leptons -> In q SM_all.
Proof. intros H. unfold SM_all. rewrite !in_app_iff. auto. Qed.
Lemma quark_width maj ks id M theta l products c : quark_channel (NN maj id M) theta l products c -> (27 <= id)%nat -> (0 < M)%Z -> (sum_masses products < M)%Z ->
  sees ks (crew (NN maj id M)) -> kdof (ks (sp (NN maj id M))) = IZR (ldof (NN maj id M)) ->
  width ks (NN maj id M) (mass (NN maj id M)) l (c / colours * unit_width (mass (NN maj id M)) theta).
Proof.
  intros HC Hid HM0 HM HS HD. pose proof PI_RGT_0 as HPI.
  assert (HR : forall S, INR (if maj then 1 else 2) / kdof (ks (sp (NN maj id M))) * S = S / 2).
  { intros S. rewrite HD. destruct maj; cbn; lra. }
  destruct HC as [v q Ms Hv Hq EM|l u d V Ms Hl Hu Hd Qu Qd EV EM].
  - assert (HC : forallb (fun v => forallb (fun q => let t := sterile_quark_neutral (N0 maj) v q in has_N0 t && (masses (others_of t) =? sum_masses [v; q; q])%Z && wcheck maj [reactions_of t] (if maj then 1 else 2)) SM_quarks) SM_neutrinos = true)
      by (destruct maj; vm_compute; reflexivity).
    rewrite forallb_forall in HC. specialize (HC v Hv). rewrite forallb_forall in HC. specialize (HC q Hq). cbv zeta in HC. apply andb_prop in HC. destruct HC as [HC HW']. apply andb_prop in HC. destruct HC as [HC M1]. apply Z.eqb_eq in M1.
    assert (HSw := quark_swap maj id M v q q false true false true (all_unswapped id M v (in_all_neutrino v Hv)) (all_unswapped id M q (in_all_quark q Hq)) (all_unswapped id M q (in_all_quark q Hq)) Hid HC
       ltac:(fold (sterile_quark_neutral (N0 maj) v q); now rewrite M1)).
    assert (HP : proper Ms /\ sumK Ms = 4 * quark_coefficient q * (32 * G_Fermi ^ 2) * theta ^ 2).
    { unfold quark_neutral_Ms in EM. unfold quark_coefficient. clear -EM Hq. unfold SM_quarks in Hq. each Hq; cbn [Q3 up down charm strange top bottom Z.eqb Pos.eqb rbind] in EM |- *; cbv zeta in EM; match type of EM with Ok ?y = _ => assert (Ms = y) as -> by congruence end; (split; [proper_tac|]); cbn; unfold g_R; field. }
    pose proof (width_lift maj id M ks (mass (NN maj id M)) [(plain (sterile_quark_neutral (NN maj id M) v q), Ms)] [reactions_of (sterile_quark_neutral (N0 maj) v q)]
      _ (if maj then 1 else 2) (mass_pos maj id M HM0) HS Hid ltac:(cbn [map fst snd plain]; f_equal; exact HSw) ltac:(apply Forall_cons; [exact HP|apply Forall_nil]) HW') as HW.
    rewrite HR in HW. match goal with |- width _ _ _ _ ?y => match type of HW with width _ _ _ _ ?x => replace y with x; [exact HW|] end end.
    unfold unit_width, colours. field. lra.
  - assert (HC : forallb (fun l => forallb (fun u => forallb (fun d => let t := sterile_quark_charged (N0 maj) l u d in negb ((Q3 u =? 2)%Z && (Q3 d =? -1)%Z) || (has_N0 t && (masses (others_of t) =? sum_masses [l; u; d])%Z && wcheck maj [reactions_of t] (if maj then 1 else 2))) SM_quarks) SM_quarks) SM_leptons = true)
      by (destruct maj; vm_compute; reflexivity).
    rewrite forallb_forall in HC. specialize (HC l Hl). rewrite forallb_forall in HC. specialize (HC u Hu). rewrite forallb_forall in HC. specialize (HC d Hd). cbv zeta in HC.
    rewrite Qu, Qd in HC. cbn [Z.eqb Pos.eqb andb negb orb] in HC. apply andb_prop in HC. destruct HC as [HC HW']. apply andb_prop in HC. destruct HC as [HC M1]. apply Z.eqb_eq in M1.
    assert (HSw := quark_swap maj id M l u d false true false true (all_unswapped id M l (in_all_lepton l Hl)) (all_unswapped id M u (in_all_quark u Hu)) (all_unswapped id M d (in_all_quark d Hd)) Hid HC
       ltac:(fold (sterile_quark_charged (N0 maj) l u d); now rewrite M1)).
    assert (HP : proper Ms /\ sumK Ms = 4 * V ^ 2 * (32 * G_Fermi ^ 2) * theta ^ 2).
    { unfold quark_charged_Ms in EM. rewrite EV in EM. cbn [rbind] in EM. assert (Ms = [sterileM theta (4 * V ^ 2) 0 [0; 3; 1; 2]%nat]) as -> by congruence. split; [proper_tac|]. cbn; ring. }
    pose proof (width_lift maj id M ks (mass (NN maj id M)) [(plain (sterile_quark_charged (NN maj id M) l u d), Ms)] [reactions_of (sterile_quark_charged (N0 maj) l u d)]
      _ (if maj then 1 else 2) (mass_pos maj id M HM0) HS Hid ltac:(cbn [map fst snd plain]; f_equal; exact HSw) ltac:(apply Forall_cons; [exact HP|apply Forall_nil]) HW') as HW.
    rewrite HR in HW. match goal with |- width _ _ _ _ ?y => match type of HW with width _ _ _ _ ?x => replace y with x; [exact HW|] end end.
    unfold unit_width, colours. field. lra.
Qed.
Lemma width_unique ks n m l x y : 0 < m -> width ks n m l x -> width ks n m l y -> x = y.
Proof.
  intros Hm. apply total_unique. intros e u v (w & p & ms & E & H1 & H2 & H3 & ->) (w' & p' & ms' & E' & H1' & H2' & H3' & ->).
  assert (w = w') by congruence. assert (ms = ms') by congruence. subst. f_equal. exact (dalitz_unique _ _ _ _ H3 H3' Hm).
Qed.
Lemma unit_pos m theta : 0 < m -> theta <> 0 -> 0 < unit_width m theta.
Proof.
  intros Hm Ht. pose proof PI_RGT_0. unfold unit_width. apply Rdiv_lt_0_compat; [|apply Rmult_lt_0_compat; [lra|now apply pow_lt]].
  apply Rmult_lt_0_compat; [|now apply pow2_gt_0]. apply Rmult_lt_0_compat; apply pow_lt; [apply G_Fermi_pos|exact Hm].
Qed.
Lemma lepton_coefficient n theta l products c : lepton_channel n theta l products c -> 0 < c.
Proof. intros [a _|v l' _ _|v l' ol _ _ _ _ _]; try lra. unfold pair_coefficient, sin_theta_w_2. destruct (flav_eqb _ _); lra. Qed.
Lemma quark_coefficient_pos n theta l products c : quark_channel n theta l products c -> 0 < c.
Proof.
  intros [v q Ms _ Hq _|l' u d V Ms _ _ _ _ _ HV _]; unfold colours.
  - apply Rmult_lt_0_compat; [lra|]. unfold quark_coefficient, sin_theta_w_2. destruct (Q3 q =? 2)%Z; lra.
  - apply Rmult_lt_0_compat; [lra|]. assert (0 < V); [|now apply pow_lt].
    unfold CKM in HV. destruct (family u) as [|[|[|[|]]]]; try discriminate HV; destruct (family d) as [|[|[|[|]]]]; try discriminate HV; injection HV as <-; lra.
Qed.

(* C144. The leptonic widths of a Dirac sterile neutrino are the textbook ones. *)
Theorem C144_dirac_leptons : forall ks id M theta l products c, let n := dirac_sterile_neutrino id M in
  lepton_channel n theta l products c -> (27 <= id)%nat -> (0 < M)%Z -> (sum_masses products < M)%Z -> sees ks (crew n) -> kdof (ks (sp n)) = IZR (ldof n) ->
  forall x, width ks n (mass n) l x <-> x = c * unit_width (mass n) theta.
Proof.
  intros ks id M theta l products c n HC Hid HM0 HM HS HD x. pose proof (lepton_width false ks id M theta l products c HC Hid HM0 HM HS HD) as HW. split.
  - intros HX. exact (width_unique _ _ _ _ _ _ (mass_pos false id M HM0) HX HW).
  - intros ->. exact HW.
Qed.
Print Assumptions C144_dirac_leptons.
(* A Majorana sterile neutrino decays at the same rate as a Dirac one, half of
   what its two conjugate sets of channels give. *)
Theorem C144_majorana_refuted : forall ks id M theta l products c, let n := sterile_neutrino id M in
  lepton_channel n theta l products c -> (27 <= id)%nat -> (0 < M)%Z -> (sum_masses products < M)%Z -> sees ks (crew n) -> kdof (ks (sp n)) = IZR (ldof n) -> theta <> 0 ->
  width ks n (mass n) l (c * unit_width (mass n) theta) /\ ~ width ks n (mass n) l (2 * c * unit_width (mass n) theta).
Proof.
  intros ks id M theta l products c n HC Hid HM0 HM HS HD Ht. pose proof (lepton_width true ks id M theta l products c HC Hid HM0 HM HS HD) as HW.
  split; [exact HW|]. intros HX. pose proof (width_unique _ _ _ _ _ _ (mass_pos true id M HM0) HX HW) as E.
  pose proof (unit_pos _ theta (mass_pos true id M HM0) Ht). pose proof (lepton_coefficient _ _ _ _ _ HC). change (NN true id M) with n in *. nra.
Qed.
Print Assumptions C144_majorana_refuted.
(* The channels with quarks lack the sum over colours. *)
Theorem C144_quarks_refuted : forall maj ks id M theta l products c, let n := if maj : bool then sterile_neutrino id M else dirac_sterile_neutrino id M in
  quark_channel n theta l products c -> (27 <= id)%nat -> (0 < M)%Z -> (sum_masses products < M)%Z -> sees ks (crew n) -> kdof (ks (sp n)) = IZR (ldof n) -> theta <> 0 ->
  width ks n (mass n) l (c / 3 * unit_width (mass n) theta) /\ ~ width ks n (mass n) l (c * unit_width (mass n) theta).
Proof.
  intros maj ks id M theta l products c n HC Hid HM0 HM HS HD Ht. pose proof (quark_width maj ks id M theta l products c HC Hid HM0 HM HS HD) as HW.
  split; [exact HW|]. intros HX. pose proof (width_unique _ _ _ _ _ _ (mass_pos maj id M HM0) HX HW) as E.
  pose proof (unit_pos _ theta (mass_pos maj id M HM0) Ht). pose proof (quark_coefficient_pos _ _ _ _ _ HC). change (NN maj id M) with n in *. unfold colours in E. nra.
Qed.
Print Assumptions C144_quarks_refuted.

(* a simulation that holds all the particles *)
Definition all_ks (s : specie) : kspecie :=
  mkK (sid s) (sname s) 0 0 [] 0 (majorana s)
    (match find (fun p => sid (sp p) =? sid s)%nat SM_all with Some p => Some (IZR (Q3 p) / 3)%R | None => Some 0%R end)
    false false 0 [] EmptyString 4 0 0.
Example C144_example : let n := dirac_sterile_neutrino 40 (10 ^ 12)%Z in
  sees all_ks (crew n) /\ kdof (all_ks (sp n)) = IZR (ldof n) /\
  lepton_channel n 1 (combine (nc_pair n neutrino_e electron) [sterile_NC_Ms 1 (g_L_of electron neutrino_e); sterile_NC_Ms 1 (g_L_of electron neutrino_e)])
    [neutrino_e; electron; electron] ((1 + 4 * sin_theta_w_2 + 8 * sin_theta_w_2 ^ 2) / 4) /\ (sum_masses [neutrino_e; electron; electron] < 10 ^ 12)%Z /\
  exists Ms, quark_channel n 1 [(plain (sterile_quark_charged n electron up down), Ms)] [electron; up; down] (3 * (974 / 1000) ^ 2).
Proof.
  intros n. split.
  { intros p Hp. assert (HD : (0 < 4)%R) by lra. unfold crew in Hp. destruct Hp as [<-|Hp].
    - cbn. repeat split; try exact HD; f_equal; lra.
    - unfold SM_all, SM_quarks in Hp. each Hp; repeat split; exact HD. }
  split; [reflexivity|]. split; [apply of_pair; cbn; auto|]. split; [vm_compute; reflexivity|].
  eexists. apply of_up_down; cbn; auto 10; reflexivity.
Qed.
(* the library does list these interactions with these matrix elements *)
Theorem C144_library : forall thetas n l products c theta, lepton_channel n theta l products c -> theta <> 0 ->
  (forall a, In a SM_neutrinos -> l = flat_map (neutrinos_M n theta a) SM_neutrinos -> thetas (flav a) = theta) ->
  (forall v l', In v SM_neutrinos -> In l' SM_leptons -> products = [v; l'; l'] -> thetas (flav v) = theta) ->
  (forall v l' ol, In v SM_neutrinos -> In l' SM_leptons -> l' <> ol -> products = [v; l'; ol] -> thetas (flav l') = theta) ->
  forall i, In i l -> In (fst (fst i), snd i) (sterile_leptons_interactions_M thetas n SM_neutrinos SM_leptons).
Proof.
  intros thetas n l products c theta HC Ht H1 H2 H3 i Hi. unfold sterile_leptons_interactions_M. apply in_or_app.
  assert (HN : nonzero theta = true) by (unfold nonzero; destruct (Req_EM_T theta 0); [contradiction|reflexivity]).
  destruct HC as [a Ha|v l Hv Hl|v l ol Hv Hl Ho Hd Hf].
  - left. apply in_flat_map in Hi. destruct Hi as (b & Hb & Hi). apply in_flat_map. exists (a, b). split; [apply in_prod; assumption|]. cbn [fst snd]. cbv zeta. rewrite (H1 a Ha eq_refl), HN.
    unfold neutrinos_M, scattering_pair in Hi. cbn [sterile_active_scattering combine In plain] in Hi. destruct Hi as [<-|[<-|[]]]; [now left|right; now left].
  - right. apply in_flat_map. exists l. split; [exact Hl|]. apply in_flat_map. exists v. split; [exact Hv|]. apply in_or_app. left. rewrite (H2 v l Hv Hl eq_refl), HN.
    unfold nc_pair in Hi. cbn [sterile_NC] in Hi. destruct (_ || _)%bool; cbn [combine In plain] in Hi; (destruct Hi as [<-|[<-|[]]]; [now left|right; now left]).
  - right. apply in_flat_map. exists l. split; [exact Hl|]. apply in_flat_map. exists v. split; [exact Hv|]. apply in_or_app. right. cbn [length SM_leptons Nat.ltb Nat.leb].
    apply in_flat_map. exists ol. split.
    + clear -Hl Ho Hd. each Hl; each Ho; try (exfalso; now apply Hd); cbn; auto.
    + rewrite (H3 v l ol Hv Hl Hd eq_refl), HN, Hf. replace (flav_eqb (flav ol) (flav ol)) with true by (destruct (flav ol) as [[]|]; reflexivity). cbn [andb].
      unfold cc_pair in Hi. cbn [sterile_CC combine In] in Hi. destruct Hi as [<-|[<-|[]]]; [now left|right; now left].
Qed.
Print Assumptions C144_library.
