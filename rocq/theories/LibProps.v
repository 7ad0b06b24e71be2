(* C116-C121, C126. Specification: an interaction is balanced for a weight w of
   particles if the sums of w over both sides, antiparticles counted with the
   opposite sign, are equal (LibProofs); mesons and their decays, chains of
   decays and `pulled` (Lib2Proofs). *)
From Coq Require Import Permutation.
From Verif Require Import Base CrossModel CrossProofs CrossProofs2 LibModel LibProofs Lib2Proofs Lib3Proofs.

(* ---------- C116 ---------- *)
Definition flavour_number (f : flavour) (p : lib) : Z := if flav_eqb (flav p) (Some f) then 1%Z else 0%Z.
Theorem C116_neutrino_charge : forall ls ns t q, (forall n, In n ns -> Q3 n = 0%Z) -> (forall l, In l ls -> Q3 l = q) ->
  In t (neutrino_interactions ls ns ++ lepton_interactions ls ns) -> balanced Q3 t.
Proof.
  intros ls ns t q Hn Hl H. apply in_app_or in H. destruct H as [H|H]; [now apply (neutrino_interactions_balanced _ ls ns)|].
  refine (lepton_interactions_balanced Q3 ls ns t q _ H). intros l n Il In' _. rewrite (Hn n In'), (Hl l Il). lia.
Qed.
Print Assumptions C116_neutrino_charge.
Theorem C116_neutrino_flavour : forall ls ns t f, In t (neutrino_interactions ls ns ++ lepton_interactions ls ns) -> balanced (flavour_number f) t.
Proof.
  intros ls ns t f H. apply in_app_or in H. destruct H as [H|H]; [now apply (neutrino_interactions_balanced _ ls ns)|].
  refine (lepton_interactions_balanced _ ls ns t 0 _ H). intros l n _ _ E. unfold flavour_number. rewrite E. lia.
Qed.
Print Assumptions C116_neutrino_flavour.
(* and so do all the reactions derived by crossing *)
Theorem C116_neutrino_reactions : forall ls ns t r w q, told_apart (ls ++ ns) -> (forall p, In p (ls ++ ns) -> majorana (sp p) = false) ->
  (forall p, In p (ls ++ ns) -> q (sp p) = w p) -> balanced w t ->
  In t (neutrino_interactions ls ns ++ lepton_interactions ls ns) -> In r (reactions_of t) -> conserved q r.
Proof.
  intros ls ns t r w q HD HM HQ HB It Ir. destruct (fit_neutrino ls ns t It) as (HF & HI).
  refine (proj1 (generated_conserve w q t r HF (told_incl _ _ HI HD) _ _ Ir) HB); intros p Ip; [now apply HQ, HI|]. intros M. rewrite (HM p (HI p Ip)) in M. discriminate M.
Qed.
Print Assumptions C116_neutrino_reactions.
Theorem C116_sterile_charge : forall mix s ns ls i q, Q3 s = 0%Z -> (forall n, In n ns -> Q3 n = 0%Z) -> (forall l, In l ls -> Q3 l = q) ->
  In i (sterile_leptons_interactions mix s ns ls) -> balanced Q3 (fst i).
Proof.
  intros mix s ns ls i q Hs Hn Hl H. apply sterile_leptons_in in H. unfold balanced.
  destruct H as [(a & b & Ia & Ib & [->| ->])|[(n & l & Ia & Ib & [->| ->])|(n & l & ol & Ia & Ib & Ic & _ & _ & [->| ->])]];
    cbn [sterile_active_scattering sterile_NC sterile_CC tmpl22 tally tparts tflags fst snd]; rewrite ?Hs, ?(Hn _ Ia), ?(Hn _ Ib), ?(Hl _ Ib), ?(Hl _ Ic); lia.
Qed.
Print Assumptions C116_sterile_charge.
Theorem C116_quark_charge : forall mix s ns ls qs out t, Q3 s = 0%Z -> (forall n, In n ns -> Q3 n = 0%Z) -> (forall l, In l ls -> Q3 l = (-3)%Z) ->
  sterile_quark_interactions mix s ns ls qs = Ok out -> In t out -> balanced Q3 t.
Proof.
  intros mix s ns ls qs out t Hs Hn Hl E I. destruct (sterile_quarks_in _ _ _ _ _ _ _ E I) as [(q & n & Iq & In' & ->)|(u & d & l & _ & _ & Il & Hu & Hd & ->)];
    unfold balanced; cbn [sterile_quark_neutral sterile_quark_charged tmpl22 tally tparts tflags fst snd]; rewrite ?Hs, ?(Hn _ In'), ?(Hl _ Il), ?Hu, ?Hd; lia.
Qed.
Print Assumptions C116_quark_charge.
Theorem C116_hadron_charge : forall s n l m t, Q3 s = 0%Z -> Q3 n = 0%Z ->
  (Q3 m = 0%Z -> In t (sterile_neutral_meson s n m) -> balanced Q3 t) /\ (Q3 m = Q3 l -> In t (sterile_charged_meson s l m) -> balanced Q3 t).
Proof.
  intros s n l m t Hs Hn. split; intros Hm H; unfold balanced; destruct H as [<-|[<-|[]]]; cbn [tmpl12 tally tparts tflags fst snd]; rewrite ?Hs, ?Hn, ?Hm; lia.
Qed.
Print Assumptions C116_hadron_charge.
(* a sterile neutrino breaks the flavour numbers but not the lepton number *)
Theorem C116_sterile_lepton_number : forall mix s ns ls qs m w out, w s = 1%Z -> (forall p, In p (ns ++ ls) -> w p = 1%Z) -> (forall q, In q (m :: qs) -> w q = 0%Z) ->
  (forall i, In i (sterile_leptons_interactions mix s ns ls) -> balanced w (fst i)) /\
  (sterile_quark_interactions mix s ns ls qs = Ok out -> forall t, In t out -> balanced w t) /\
  (forall p t, In p (ns ++ ls) -> In t (sterile_neutral_meson s p m ++ sterile_charged_meson s p m) -> balanced w t).
Proof.
  intros mix s ns ls qs m w out Hs Hl Hq. assert (N : forall n, In n ns -> w n = 1%Z) by (intros; apply Hl, in_or_app; auto). assert (L : forall l, In l ls -> w l = 1%Z) by (intros; apply Hl, in_or_app; auto).
  assert (Q : forall q, In q qs -> w q = 0%Z) by (intros; apply Hq; now right). split; [|split].
  - intros i H. apply sterile_leptons_in in H. unfold balanced.
    destruct H as [(a & b & Ia & Ib & [->| ->])|[(n & l & Ia & Ib & [->| ->])|(n & l & ol & Ia & Ib & Ic & _ & _ & [->| ->])]];
      cbn [sterile_active_scattering sterile_NC sterile_CC tmpl22 tally tparts tflags fst snd]; rewrite ?Hs, ?(N _ Ia), ?(N _ Ib), ?(L _ Ib), ?(L _ Ic); lia.
  - intros E t I. destruct (sterile_quarks_in _ _ _ _ _ _ _ E I) as [(q & n & Iq & In' & ->)|(u & d & l & Iu & Id & Il & _ & _ & ->)];
      unfold balanced; cbn [sterile_quark_neutral sterile_quark_charged tmpl22 tally tparts tflags fst snd]; rewrite ?Hs, ?(N _ In'), ?(L _ Il), ?(Q _ Iq), ?(Q _ Iu), ?(Q _ Id); lia.
  - intros p t Ip I. unfold balanced. apply in_app_or in I. destruct I as [[<-|[<-|[]]]|[<-|[<-|[]]]]; cbn [tmpl12 tally tparts tflags fst snd]; rewrite Hs, (Hl p Ip), (Hq m (or_introl eq_refl)); lia.
Qed.
Print Assumptions C116_sterile_lepton_number.
Example C116_case : told_apart (lib_leptons ++ lib_neutrinos) /\ (forall n, In n lib_neutrinos -> Q3 n = 0%Z) /\ (forall l, In l lib_leptons -> Q3 l = (-3)%Z) /\
  length (neutrino_interactions lib_leptons lib_neutrinos ++ lepton_interactions lib_leptons lib_neutrinos) = 21 /\
  length (sterile_leptons_interactions (fun _ => true) (dirac_sterile_neutrino 50 300000000) lib_neutrinos lib_leptons) = 48.
Proof.
  split; [exact told_library|]. split; [cbn; intuition (subst; reflexivity)|]. split; [cbn; intuition (subst; reflexivity)|]. split; vm_compute; reflexivity.
Qed.

(* ---------- C117 ---------- *)
Definition unbalanced_decays : list tmpl :=
  [mkTmpl ([charged_kaon; charged_pion], [charged_pion; charged_pion]) ([false; true], [false; false]);
   mkTmpl ([kaon_long; charged_pion], [electron; neutrino_e]) ([false; true], [false; true]);
   mkTmpl ([kaon_long; charged_pion], [muon; neutrino_mu]) ([false; true], [false; true]);
   mkTmpl ([omega; charged_pion], [charged_pion; neutral_pion]) ([false; true], [false; false])].
(* the result of meson_interactions conserves charge except for four decays;
   each of these violates it in all its reactions *)
Theorem C117_exactly_four_violate : forall E ps, complete E -> exists out, meson_interactions E (map lib_of ps) = Ok out /\
  forall t r, In t out -> In r (reactions_of t) -> (conserved charge_of r <-> ~ In t unbalanced_decays).
Proof.
  intros E ps HE. destruct (meson_interactions_count E ps HE) as (out & Eo & HK & _). exists out. split; [exact Eo|]. intros t r It Ir.
  destruct (HK t It) as [(m & Im)|(ls & ns & Il & In' & H)].
  - destruct (channels_fit m t Im) as (HF & HI). rewrite <- (generated_conserve Q3 charge_of t r HF (told_incl _ _ HI told_all)); [|intros p Ip; apply charge_of_lib; right; right; now apply HI|intros p Ip; apply lib_all_majorana, HI; exact Ip|exact Ir].
    assert (G := by_table (fun _ c => Bool.eqb (tally Q3 (fst (tparts c)) (fst (tflags c)) =? tally Q3 (snd (tparts c)) (snd (tflags c)))%Z (negb (existsb (fun u => if tmpl_dec u c then true else false) unbalanced_decays)))
      ltac:(vm_compute; reflexivity) m t Im). apply Bool.eqb_prop in G. unfold balanced. rewrite <- Z.eqb_eq, G, Bool.negb_true_iff. split.
    + intros N J. assert (T : existsb (fun u => if tmpl_dec u t then true else false) unbalanced_decays = true); [|congruence].
      apply existsb_exists. exists t. split; [exact J|]. destruct (tmpl_dec t t); congruence.
    + intros N. destruct (existsb _ _) eqn:T; [|reflexivity]. exfalso. apply N. apply existsb_exists in T. destruct T as (u & Iu & T). destruct (tmpl_dec u t) as [->|]; [exact Iu|discriminate].
  - assert (Q : forall p, In p (lib_leptons ++ lib_neutrinos) -> In p lib_all) by (cbn; intuition auto).
    split; intros _.
    + intros J. destruct (fit_neutrino ls ns t (in_or_app _ _ _ (or_intror H))) as (_ & HI).
      assert (W : forallb (fun u => existsb (fun p => negb (inb p (lib_leptons ++ lib_neutrinos))) (parts u)) unbalanced_decays = true) by (vm_compute; reflexivity).
      rewrite forallb_forall in W. specialize (W t J). apply existsb_exists in W. destruct W as (p & Ip & Np). apply Bool.negb_true_iff in Np.
      assert (Z : In p (lib_leptons ++ lib_neutrinos)); [|apply inb_in in Z; congruence].
      apply HI, in_app_or in Ip. apply in_or_app. destruct Ip; auto.
    + assert (B : balanced Q3 t).
      { apply (C116_neutrino_charge ls ns t (-3)); [intros n I; apply In' in I; revert I; cbn; intuition (subst; reflexivity)|intros l I; apply Il in I; revert I; cbn; intuition (subst; reflexivity)|apply in_or_app; auto]. }
      assert (HI : incl (ls ++ ns) (lib_leptons ++ lib_neutrinos)) by (intros z Hz; apply in_app_or in Hz; apply in_or_app; destruct Hz; auto).
      apply (C116_neutrino_reactions ls ns t r Q3 charge_of); [exact (told_incl _ _ HI told_library)| | |exact B|apply in_or_app; auto|exact Ir].
      * intros p Ip. apply HI in Ip. revert Ip. cbn. intuition (subst; reflexivity).
      * intros p Ip. apply charge_of_lib. right; right. apply Q. now apply HI.
Qed.
Print Assumptions C117_exactly_four_violate.
Definition all_lib_env : menv := mkEnv lib_leptons lib_neutrinos (map lib_of all_mesons) [photon] 0.
Lemma all_lib_complete : complete all_lib_env.
Proof.
  split; [intros m; destruct m; reflexivity|]. do 5 (split; [reflexivity|]). split; intros x H; exact H.
Qed.
(* K- -> pi- pi- pi- *)
Theorem C117_kaon_refuted : exists out t r, meson_interactions all_lib_env [charged_kaon] = Ok out /\ In t out /\ In r (reactions_of t) /\
  map (fun it => (iside it, ispecie it, anti it)) r =
    [((-1)%Z, sp charged_kaon, false); (1%Z, sp charged_pion, false); (1%Z, sp charged_pion, false); (1%Z, sp charged_pion, false)] /\
  ~ conserved charge_of r.
Proof.
  destruct (C117_exactly_four_violate all_lib_env [MK] all_lib_complete) as (out & E & H).
  set (t := mkTmpl ([charged_kaon; charged_pion], [charged_pion; charged_pion]) ([false; true], [false; false])).
  assert (It : In t out).
  { destruct (meson_interactions_count all_lib_env [MK] all_lib_complete) as (out' & E' & _ & HC). rewrite E in E'. injection E' as <-.
    apply (count_occ_In tmpl_dec). destruct (HC MK t) as (_ & C); [cbn; auto|]. rewrite C; [vm_compute; lia|].
    intros (l1 & p & l2 & EE & Hc & _). destruct l1 as [|a [|b l1]]; cbn in EE; [|injection EE as <- EE; discriminate EE|injection EE as <- EE; discriminate EE].
    injection EE as <- <-. apply chain_feeds in Hc. discriminate Hc. }
  exists out, t. assert (R : exists r, nth_error (reactions_of t) 0 = Some r /\ map (fun it => (iside it, ispecie it, anti it)) r =
    [((-1)%Z, sp charged_kaon, false); (1%Z, sp charged_pion, false); (1%Z, sp charged_pion, false); (1%Z, sp charged_pion, false)]).
  { eexists. split; vm_compute; reflexivity. }
  destruct R as (r & N & M). apply nth_error_In in N. exists r. split; [exact E|]. split; [exact It|]. split; [exact N|]. split; [exact M|].
  rewrite (H t r It N). intros K. exact (K (or_introl eq_refl)).
Qed.
Print Assumptions C117_kaon_refuted.
(* beta decay with the charges of the table *)
Theorem C117_baryon_refuted : ~ balanced Q3 (baryons_interaction neutron proton neutrino_e electron) /\
  (exists r, In r (reactions_of (baryons_interaction neutron proton neutrino_e electron))) /\
  forall r, In r (reactions_of (baryons_interaction neutron proton neutrino_e electron)) -> ~ conserved charge_of r.
Proof.
  assert (B : ~ balanced Q3 (baryons_interaction neutron proton neutrino_e electron)) by (vm_compute; discriminate).
  split; [exact B|]. split; [eexists; vm_compute; left; reflexivity|]. intros r Ir C. apply B.
  refine (proj2 (generated_conserve Q3 charge_of _ r _ _ _ _ Ir) C).
  - split; reflexivity.
  - apply nodup_told; [apply (nodupb_ok Nat.eqb Nat.eqb_eq)|apply (nodupb_ok String.eqb String.eqb_eq)]; vm_compute; reflexivity.
  - intros p Ip. apply charge_of_lib, inb_in. revert p Ip. rewrite <- forallb_forall. vm_compute. reflexivity.
  - intros p Ip Mp. exfalso. assert (F : negb (majorana (sp p)) = true); [|rewrite Mp in F; discriminate F]. clear Mp. revert p Ip. rewrite <- forallb_forall. vm_compute. reflexivity.
Qed.
Print Assumptions C117_baryon_refuted.

(* ---------- C118 ---------- *)
(* Only a particle that is on the left, or crosses to the left from an
   antiparticle on the right, leads an integral *)
Theorem C118_who_leads : forall t r, flags_fit t -> told_apart (parts t) -> In r (reactions_of t) ->
  exists f h rest, In f (titems t) /\ r = h :: rest /\ ispecie h = ispecie f /\
  (iside f = (-1)%Z /\ anti f = false \/ iside f = 1%Z /\ (anti f = true \/ majorana (ispecie f) = true)).
Proof.
  intros t r HF HD Ir. destruct (leads_only t r HF HD Ir) as (f & h & rest & If & -> & -> & A). exists f, (to_side (-1) f), rest.
  split; [exact If|]. split; [reflexivity|]. split; [apply to_side_specie|].
  destruct (base_two_sided (species_of t) (tflags t) f If) as [S|S]; unfold to_side in A; rewrite S in A; cbn [Z.eqb Pos.eqb] in A; [left; auto|right].
  split; [exact S|]. unfold cross_particle in A. cbn [anti] in A. destruct (majorana (ispecie f)); [auto|]. left. now destruct (anti f).
Qed.
Print Assumptions C118_who_leads.
(* the products of a decay given together with its charge conjugate are all
   replenished by it *)
Theorem C118_conjugates_replenish : forall t par f, flags_fit t -> told_apart (parts t) -> In par (titems t) -> In f (titems t) -> index f <> index par ->
  2 < length (titems t) -> (mass_sum (titems t) < 2 * smass (ispecie par))%Z ->
  exists t' r, (t' = t \/ t' = conjugate t) /\ In r (reactions_of t') /\
    (exists h rest, r = h :: rest /\ ispecie h = ispecie f) /\ (exists p, rights r = [p] /\ ispecie p = ispecie par).
Proof.
  intros t par f HF HD Ip If Hn HL HM.
  destruct (anti (to_side (-1) f)) eqn:A.
  - assert (E : titems (conjugate t) = map (fun it => mkItem (iside it) (ispecie it) (negb (anti it)) (index it) (crossed it)) (titems t)) by apply titems_conjugate.
    set (cj := fun it => mkItem (iside it) (ispecie it) (negb (anti it)) (index it) (crossed it)) in E.
    destruct (replenish (conjugate t) (cj par) (cj f)) as (r & Ir & Eh & Er).
    + now apply conjugate_fit.
    + exact HD.
    + rewrite E. now apply in_map.
    + rewrite E. now apply in_map.
    + exact Hn.
    + now rewrite E, map_length.
    + unfold to_side in *. cbn [cj iside] in *. destruct (iside f =? -1)%Z; cbn [cj anti cross_particle ispecie] in *; [now rewrite A|]. destruct (majorana (ispecie f)); [reflexivity|]. now rewrite A.
    + rewrite E. unfold mass_sum in *. rewrite map_map. exact HM.
    + exists (conjugate t), r. split; [auto|]. split; [exact Ir|]. split; [|exists (to_side 1 (cj par)); split; [exact Er|now rewrite to_side_specie]].
      destruct r as [|h rest]; [discriminate|]. cbn in Eh. injection Eh as ->. exists (to_side (-1) (cj f)), rest. split; [reflexivity|now rewrite to_side_specie].
  - destruct (replenish t par f HF HD Ip If Hn HL A HM) as (r & Ir & Eh & Er). exists t, r. split; [auto|]. split; [exact Ir|].
    split; [|exists (to_side 1 par); split; [exact Er|apply to_side_specie]].
    destruct r as [|h rest]; [discriminate|]. cbn in Eh. injection Eh as ->. exists (to_side (-1) f), rest. split; [reflexivity|apply to_side_specie].
Qed.
Print Assumptions C118_conjugates_replenish.
(* a product p is replenished by a decay of m into given particles when some
   interaction of the library for these particles has a reaction led by p with
   m alone on the right *)
Definition replenished (m : meson) (ps : list lib * list lib) (p : lib) : Prop :=
  exists c h rest, In c (channels m) /\ tparts c = ps /\ In (h :: rest) (reactions_of c) /\ ispecie h = sp p /\
  exists q, rights (h :: rest) = [q] /\ ispecie q = sp (lib_of m).
Definition forgotten : list (meson * (list lib * list lib) * lib) :=
  [(MK, ([charged_kaon; neutral_pion], [electron; neutrino_e]), electron);
   (MK, ([charged_kaon; charged_pion], [charged_pion; charged_pion]), charged_pion);
   (MK, ([charged_kaon], [muon; neutrino_mu]), muon);
   (MK, ([charged_kaon], [charged_pion; neutral_pion]), charged_pion);
   (MKL, ([kaon_long; charged_pion], [electron; neutrino_e]), charged_pion);
   (MKL, ([kaon_long; charged_pion], [electron; neutrino_e]), electron);
   (MKL, ([kaon_long; charged_pion], [muon; neutrino_mu]), charged_pion);
   (MKL, ([kaon_long; charged_pion], [muon; neutrino_mu]), muon);
   (Mrho, ([charged_rho], [charged_pion; neutral_pion]), charged_pion);
   (Momega, ([omega; charged_pion], [charged_pion; neutral_pion]), charged_pion)].
Definition sp_eqb (a b : specie) : bool := if specie_dec a b then true else false.
Definition replb (m : meson) (ps : list lib * list lib) (p : lib) : bool :=
  existsb (fun c => (if pair_dec (list_eq_dec lib_dec) (list_eq_dec lib_dec) (tparts c) ps then true else false) &&
    existsb (fun r => match r with [] => false | h :: _ => sp_eqb (ispecie h) (sp p) && match rights r with [q] => sp_eqb (ispecie q) (sp (lib_of m)) | _ => false end end) (reactions_of c)) (channels m).
Lemma replb_ok m ps p : replb m ps p = true <-> replenished m ps p.
Proof.
  unfold replb, replenished. rewrite existsb_exists. split.
  - intros (c & Ic & H). apply andb_prop in H. destruct H as (H1 & H2). destruct (pair_dec _ _ _ _) as [E|]; [|discriminate]. apply existsb_exists in H2. destruct H2 as (r & Ir & H).
    destruct r as [|h rest]; [discriminate|]. apply andb_prop in H. destruct H as (H3 & H4). unfold sp_eqb in *. destruct (specie_dec _ _) as [Eh|]; [|discriminate].
    destruct (rights (h :: rest)) as [|q [|? ?]] eqn:Er; try discriminate. destruct (specie_dec _ _) as [Eq|]; [|discriminate]. exists c, h, rest. split; [exact Ic|]. split; [exact E|]. split; [exact Ir|]. split; [exact Eh|]. exists q. auto.
  - intros (c & h & rest & Ic & E & Ir & Eh & q & Er & Eq). exists c. split; [exact Ic|]. apply andb_true_intro. split; [destruct (pair_dec _ _ _ _); congruence|].
    apply existsb_exists. exists (h :: rest). split; [exact Ir|]. rewrite Er. unfold sp_eqb. destruct (specie_dec _ _); [|contradiction]. destruct (specie_dec _ _); [reflexivity|contradiction].
Qed.
(* the products of the library's meson decays that never appear *)
Theorem C118_forgotten_products_refuted : forall m c p, In c (channels m) -> In p (tl (parts c)) -> (~ replenished m (tparts c) p <-> In (m, tparts c, p) forgotten).
Proof.
  intros m c p Ic Ip.
  set (dec := pair_dec (pair_dec meson_dec (pair_dec (list_eq_dec lib_dec) (list_eq_dec lib_dec))) lib_dec).
  assert (G := by_table (fun m c => forallb (fun p => Bool.eqb (negb (replb m (tparts c) p)) (existsb (fun x => if dec x (m, tparts c, p) then true else false) forgotten)) (tl (parts c)))
    ltac:(vm_compute; reflexivity) m c Ic). rewrite forallb_forall in G. specialize (G p Ip). apply Bool.eqb_prop in G.
  rewrite <- replb_ok. split.
  - intros N. apply Bool.not_true_is_false in N. rewrite N in G. symmetry in G. apply existsb_exists in G. destruct G as (x & Ix & Hx). destruct (dec x _) as [->|]; [exact Ix|discriminate].
  - intros I R. rewrite R in G. assert (T : existsb (fun x => if dec x (m, tparts c, p) then true else false) forgotten = true); [|cbn [negb] in G; congruence].
    apply existsb_exists. exists (m, tparts c, p). split; [exact I|]. destruct (dec _ _); congruence.
Qed.
Print Assumptions C118_forgotten_products_refuted.
(* in particular nothing creates the charged pions of rho -> pi pi0 *)
Example C118_case : In (mkTmpl ([charged_rho], [charged_pion; neutral_pion]) ([false], [false; false])) (channels Mrho) /\
  ~ replenished Mrho ([charged_rho], [charged_pion; neutral_pion]) charged_pion /\ replenished Mrho ([charged_rho], [charged_pion; neutral_pion]) neutral_pion /\
  replenished Mpi ([charged_pion], [muon; neutrino_mu]) muon.
Proof.
  split; [now left|]. split; [rewrite <- replb_ok; vm_compute; discriminate|]. split; rewrite <- replb_ok; vm_compute; reflexivity.
Qed.

(* ---------- C119 ---------- *)
Theorem C119_copies : forall E ps, complete E -> exists out, meson_interactions E (map lib_of ps) = Ok out /\
  forall m c, In c (channels m) ->
    (pulled m ps -> count_occ tmpl_dec out c = S (count_occ meson_dec ps m)) /\
    (~ pulled m ps -> count_occ tmpl_dec out c = count_occ meson_dec ps m).
Proof. intros E ps HE. destruct (meson_interactions_count E ps HE) as (out & Eo & _ & H). exists out. auto. Qed.
Print Assumptions C119_copies.
Lemma pulled_dec m ps : pulled m ps \/ ~ pulled m ps.
Proof.
  induction ps as [|p ps IH]; [right; intros (l1 & q & l2 & F & _); destruct l1; discriminate|]. rewrite pulled_cons.
  destruct (feedsb p m) eqn:F; [left; left; now apply chain_feeds|]. destruct (meson_dec p m) as [E|N].
  - right. intros [C|(C & _)]; [apply chain_feeds in C; congruence|auto].
  - destruct IH as [IH|IH]; [left; right; auto|]. right. intros [C|(_ & C)]; [apply chain_feeds in C; congruence|auto].
Qed.
Theorem C119_whole_chain : forall E ps, complete E -> exists out, meson_interactions E (map lib_of ps) = Ok out /\
  forall m c, In c (channels m) -> (In c out <-> exists p, In p ps /\ (p = m \/ chain p m)).
Proof.
  intros E ps HE. destruct (C119_copies E ps HE) as (out & Eo & H). exists out. split; [exact Eo|]. intros m c Ic. destruct (H m c Ic) as (A & B).
  rewrite (count_occ_In tmpl_dec). split.
  - intros K. destruct (in_dec meson_dec m ps) as [I|N]; [exists m; auto|].
    destruct (pulled_dec m ps) as [P|P].
    + destruct P as (l1 & p & l2 & -> & C & _). exists p. split; [apply in_or_app; right; now left|auto].
    + rewrite (B P) in K. apply (count_occ_not_In meson_dec) in N. lia.
  - intros (p & Ip & C). destruct (in_dec meson_dec m ps) as [I|N].
    + apply (count_occ_In meson_dec) in I. destruct (pulled_dec m ps) as [P|P]; [rewrite (A P)|rewrite (B P)]; lia.
    + destruct C as [->|C]; [contradiction|]. assert (P : pulled m ps).
      { destruct (in_split p ps Ip) as (l1 & l2 & ->). exists l1, p, l2. split; [reflexivity|]. split; [exact C|]. intros I. apply N. apply in_or_app. now left. }
      rewrite (A P). lia.
Qed.
Print Assumptions C119_whole_chain.
(* each decay once, when no primary meson is listed after one that produces it *)
Theorem C119_once_if_ordered : forall E ps, complete E -> NoDup ps -> ForallOrdPairs (fun p m => ~ chain p m) ps -> exists out, meson_interactions E (map lib_of ps) = Ok out /\
  forall m c, In c (channels m) -> (exists p, In p ps /\ (p = m \/ chain p m)) -> count_occ tmpl_dec out c = 1.
Proof.
  intros E ps HE ND HO. destruct (C119_copies E ps HE) as (out & Eo & H). exists out. split; [exact Eo|]. intros m c Ic (p & Ip & C). destruct (H m c Ic) as (A & B).
  destruct (in_dec meson_dec m ps) as [I|N].
  - assert (NP : ~ pulled m ps).
    { intros (l1 & q & l2 & -> & Cq & N1). apply in_app_or in I. destruct I as [I|I]; [contradiction|]. destruct I as [->|I]; [apply chain_feeds in Cq; now rewrite feedsb_irrefl in Cq|].
      clear -HO I Cq. induction l1 as [|a l1 IH]; cbn in HO; inversion HO as [|? ? F G]; subst; [rewrite Forall_forall in F; now apply (F m I)|auto]. }
    rewrite (B NP). apply NoDup_count_occ'; auto.
  - destruct C as [->|C]; [contradiction|]. assert (P : pulled m ps).
    { destruct (in_split p ps Ip) as (l1 & l2 & ->). exists l1, p, l2. split; [reflexivity|]. split; [exact C|]. intros J. apply N. apply in_or_app. now left. }
    rewrite (A P). f_equal. now apply count_occ_not_In.
Qed.
Print Assumptions C119_once_if_ordered.
Example C119_case : complete all_lib_env /\ ForallOrdPairs (fun p m => ~ chain p m) [Mpi; MK; Mphi].
Proof. split; [exact all_lib_complete|]. repeat constructor; intros C; apply chain_feeds in C; discriminate C. Qed.
Theorem C119_once_refuted : exists ps out c, NoDup ps /\ meson_interactions all_lib_env (map lib_of ps) = Ok out /\ In c (channels Mpi) /\ count_occ tmpl_dec out c = 2.
Proof.
  exists [Mrho; Mpi]. destruct (C119_copies all_lib_env [Mrho; Mpi] all_lib_complete) as (out & E & H).
  exists out, (mkTmpl ([charged_pion], [muon; neutrino_mu]) ([false], [false; true])). split; [repeat constructor; cbn; intuition discriminate|]. split; [exact E|]. split; [now left|].
  destruct (H Mpi _ (or_introl eq_refl)) as (A & _). rewrite A; [reflexivity|]. exists [], Mrho, [Mpi]. split; [reflexivity|]. split; [now apply chain_feeds|]. intros [].
Qed.
Print Assumptions C119_once_refuted.

(* ---------- C120 ---------- *)
Definition by_sid (s : specie) : lib := match find (fun p => sid (sp p) =? sid s) lib_all with Some p => p | None => photon end.
(* each decay of the library finds its branching ratio, both in the decay of
   the parent (the products follow it in the reaction) and in the creation of a
   product (they precede it) *)
Definition table_of (p : lib) : list (string * Z) := match BR p with Some t => t | None => [] end.
Definition named_products (its : list item) : list lib := map by_sid (map ispecie its).
(* exactly one entry of the parent's table has the symbols of the products, and
   the lookup returns it *)
Definition found (m : meson) (ps : list lib) : Prop :=
  exists k v, filter (fun kv => same_glyphs (joined ps) (fst kv)) (table_of (lib_of m)) = [(k, v)] /\ branching (lib_of m) ps = Ok (Some v).
Definition foundb (m : meson) (ps : list lib) : bool :=
  match filter (fun kv => same_glyphs (joined ps) (fst kv)) (table_of (lib_of m)) with
  | [(_, v)] => match branching (lib_of m) ps with Ok (Some v') => (v =? v')%Z | _ => false end
  | _ => false
  end.
Lemma foundb_ok m ps : foundb m ps = true -> found m ps.
Proof.
  unfold foundb, found. destruct (filter _ _) as [|(k, v) [|? ?]]; try discriminate. destruct (branching _ _) as [[v'|]|]; try discriminate. intros E. apply Z.eqb_eq in E. subst. exists k, v'. auto.
Qed.
Definition checkb (m : meson) (r : list item) : bool :=
  (match lefts r with [q] => negb (sp_eqb (ispecie q) (sp (lib_of m))) || match r with [] => false | h :: rest => sp_eqb (ispecie h) (sp (lib_of m)) && foundb m (named_products rest) end | _ => true end) &&
  (match rights r with [q] => negb (sp_eqb (ispecie q) (sp (lib_of m))) || match rev r with [] => false | z :: front => sp_eqb (ispecie z) (sp (lib_of m)) && foundb m (named_products (rev front)) end | _ => true end).
Theorem C120_found : forall m c r, In c (channels m) -> In r (reactions_of c) ->
  (map ispecie (lefts r) = [sp (lib_of m)] -> exists h rest, r = h :: rest /\ ispecie h = sp (lib_of m) /\ found m (named_products rest)) /\
  (map ispecie (rights r) = [sp (lib_of m)] -> exists front z, r = front ++ [z] /\ ispecie z = sp (lib_of m) /\ found m (named_products front)).
Proof.
  intros m c r Ic Ir. assert (G := by_table (fun m c => forallb (checkb m) (reactions_of c)) ltac:(vm_compute; reflexivity) m c Ic).
  rewrite forallb_forall in G. specialize (G r Ir). apply andb_prop in G. destruct G as (G1 & G2).
  assert (SE : forall a b, sp_eqb a b = true <-> a = b) by (intros a b; unfold sp_eqb; destruct (specie_dec a b); split; congruence). split.
  - destruct (lefts r) as [|q [|? ?]]; try discriminate. intros E. injection E as E. apply SE in E. rewrite E in G1. destruct r as [|h rest]; [discriminate|]. apply andb_prop in G1. destruct G1 as (G1 & G3).
    exists h, rest. split; [reflexivity|]. split; [now apply SE|now apply foundb_ok].
  - destruct (rights r) as [|q [|? ?]]; try discriminate. intros E. injection E as E. apply SE in E. rewrite E in G2. destruct (rev r) as [|z front] eqn:R; [discriminate|]. apply andb_prop in G2. destruct G2 as (G2 & G3).
    exists (rev front), z. split; [|split; [now apply SE|now apply foundb_ok]]. rewrite <- (rev_involutive r), R. reflexivity.
Qed.
Print Assumptions C120_found.
Example C120_case : exists r, In r (reactions_of (hd (mkTmpl ([], []) ([], [])) (channels MK))) /\ map ispecie (lefts r) = [sp charged_kaon] /\
  named_products (tl r) = [electron; neutrino_e; neutral_pion] /\ branching charged_kaon (named_products (tl r)) = Ok (Some 50700%Z).
Proof.
  eexists. split; [vm_compute; left; reflexivity|]. vm_compute. auto.
Qed.
Definition total_BR (p : lib) : Z := fold_right Z.add 0%Z (map snd (table_of p)).
Theorem C120_sums : forall m, (0 < total_BR (lib_of m) <= 1000000)%Z /\ Forall (fun kv => 0 < snd kv)%Z (table_of (lib_of m)).
Proof. intros m. destruct m; (split; [vm_compute; split; congruence|]); cbn; repeat (apply Forall_cons; [cbn; lia|]); apply Forall_nil. Qed.
Print Assumptions C120_sums.
(* the branching ratios do not exhaust the decays of the charged kaon, and a
   fast-decaying particle without table makes the lookup fail *)
Theorem C120_exhaustive_refuted : total_BR charged_kaon = 948830%Z.
Proof. reflexivity. Qed.
Print Assumptions C120_exhaustive_refuted.
Theorem C120_tau_refuted : fast_decay tau = true /\ forall products, branching tau products = Raise AttributeError.
Proof. split; reflexivity. Qed.
Print Assumptions C120_tau_refuted.

(* ---------- C121 ---------- *)
Theorem C121_scatterings_once : forall ls ns, NoDup ns ->
  exists sc an, neutrino_interactions ls ns = sc ++ an /\
  (forall t, In t sc <-> exists a b, In (a, b) (cwr2 ns) /\ t = neutrino_scattering a b) /\ NoDup (cwr2 ns) /\
  (forall a, In a ns -> In (a, a) (cwr2 ns)) /\
  (forall a b, In a ns -> In b ns -> a <> b -> (In (a, b) (cwr2 ns) /\ ~ In (b, a) (cwr2 ns)) \/ (In (b, a) (cwr2 ns) /\ ~ In (a, b) (cwr2 ns))) /\
  (forall a b, In (a, b) (cwr2 ns) -> In a ns /\ In b ns) /\
  2 * length sc = length ns * (length ns + 1) /\
  (forall t, In t an <-> exists l n, In l ls /\ In n ns /\ t = neutrinos_to_leptons n l) /\ length an = length ls * length ns.
Proof.
  intros ls ns ND. eexists _, _. split; [reflexivity|]. split; [|split; [now apply cwr2_nodup|]].
  - intros t. rewrite in_map_iff. split; [intros ((a & b) & <- & I); exists a, b; auto|intros (a & b & I & ->); exists (a, b); auto].
  - split; [|split; [|split; [|split; [|split]]]].
    + intros a I. destruct (in_split a ns I) as (l1 & l2 & ->). apply cwr2_in. exists l1, l2. cbn. auto.
    + intros a b Ia Ib N. now apply cwr2_once.
    + intros a b I. apply cwr2_in in I. destruct I as (l1 & l2 & -> & I). split; apply in_or_app; right; [now left|exact I].
    + rewrite map_length. apply cwr2_length.
    + intros t. rewrite in_flat_map. split.
      * intros (l & Il & I). apply in_map_iff in I. destruct I as (n & <- & I). exists l, n. auto.
      * intros (l & n & Il & I & ->). exists l. split; [exact Il|]. apply in_map_iff. exists n. auto.
    + clear ND. induction ls as [|l ls IH]; [reflexivity|]. cbn [flat_map length]. rewrite app_length, map_length, IH. lia.
Qed.
Print Assumptions C121_scatterings_once.
Theorem C121_charged_currents : forall ls ns t, In t (lepton_interactions ls ns) <-> exists n on l ol,
  t = leptons_CC n on l ol /\ In n ns /\ In on ns /\ In l ls /\ In ol ls /\ sid (sp on) <> sid (sp n) /\ sid (sp ol) <> sid (sp l) /\ flav n = flav l /\ flav on = flav ol.
Proof. exact lepton_interactions_iff. Qed.
Print Assumptions C121_charged_currents.
Example C121_case : NoDup lib_neutrinos /\ length (neutrino_interactions [electron] lib_neutrinos) = 9 /\ length (lepton_interactions lib_leptons lib_neutrinos) = 6.
Proof. split; [|split; reflexivity]. repeat constructor; cbn; intuition discriminate. Qed.

(* ---------- C126 ---------- *)
(* the pair of sterile scattering interactions never counts a particle twice *)
Theorem C126_scattering_disjoint : forall s a b, exists i0 i1, scattering_pair s a b = [i0; i1] /\ snd i0 = reactions_of (fst i0) /\
  (forall r, In r (snd i1) <-> In r (reactions_of (fst i1)) /\ forall r', In r' (snd i0) -> first_name r' <> first_name r).
Proof.
  intros s a b. unfold scattering_pair. destruct (sterile_active_scattering s a b) as (t0 & t1) eqn:E. eexists _, _. split; [reflexivity|]. split; [reflexivity|].
  intros r. cbn [snd fst plain]. rewrite filter_In, Bool.negb_true_iff. split; intros (I & H); (split; [exact I|]).
  - intros r' I' E'. assert (T : existsb (String.eqb (first_name r)) (map first_name (reactions_of t0)) = true); [|congruence].
    apply existsb_exists. exists (first_name r'). split; [now apply in_map|]. rewrite E'. apply String.eqb_refl.
  - destruct (existsb _ _) eqn:T; [|reflexivity]. exfalso. apply existsb_exists in T. destruct T as (n & In' & T). apply String.eqb_eq in T. apply in_map_iff in In'. destruct In' as (r' & <- & I'). now apply (H r' I').
Qed.
Print Assumptions C126_scattering_disjoint.
(* products: kinds and reactions *)
Theorem C126_decay_products : forall E primary muon_dec vacuum out, decay_products E primary muon_dec vacuum = Ok out ->
  forall t l, In (t, l) out -> forall r k, In (r, k) l <-> In r (reactions_of t) /\
    (((side_sum r = -1 \/ side_sum r = -2)%Z /\ k = (if vacuum then KF1vac else KCreation)) \/ ((side_sum r = 1 \/ side_sum r = 2)%Z /\ k = (if vacuum then KFfvac else KDecay))).
Proof.
  intros E primary md vac out H t l I r k. unfold decay_products in H. cbn [rbind] in H.
  match type of H with context [rbind ?m _] => destruct m as [ms|]; [|discriminate] end. cbn [rbind] in H. injection H as <-.
  apply in_map_iff in I. destruct I as (t' & E' & _). injection E' as <- <-. rewrite in_map_iff.
  assert (C : forall x, creation_type x = true <-> (side_sum x = -1 \/ side_sum x = -2)%Z).
  { intros x. unfold creation_type. cbn [existsb]. rewrite !Bool.orb_true_iff, !Z.eqb_eq. intuition discriminate. }
  assert (D : forall x, decay_type x = true <-> (side_sum x = 1 \/ side_sum x = 2)%Z).
  { intros x. unfold decay_type. cbn [existsb]. rewrite !Bool.orb_true_iff, !Z.eqb_eq. intuition discriminate. }
  split.
  - intros (x & Ex & Ix). injection Ex as -> <-. apply filter_In in Ix. destruct Ix as (Ix & T). split; [exact Ix|]. destruct (creation_type r) eqn:Cr.
    + left. split; [now apply C|reflexivity].
    + right. split; [now apply D|reflexivity].
  - intros (Ix & H). exists r. destruct H as [(H & ->)|(H & ->)].
    + apply C in H. rewrite H. split; [reflexivity|]. apply filter_In. split; [exact Ix|]. now rewrite H.
    + apply D in H. assert (Cr : creation_type r = false) by (destruct (creation_type r) eqn:Cr; [|reflexivity]; apply C in Cr; apply D in H; lia).
      rewrite Cr. split; [reflexivity|]. apply filter_In. split; [exact Ix|]. now rewrite H, Bool.orb_true_r.
Qed.
Print Assumptions C126_decay_products.
Example C126_case : match decay_products all_lib_env [[[hd [] (reactions_of (hd (mkTmpl ([], []) ([], [])) (sterile_charged_meson (dirac_sterile_neutrino 50 300000000) electron charged_pion)))]]] false false with
  | Ok out => length out = 8 | Raise _ => False end.
Proof. vm_compute. reflexivity. Qed.
