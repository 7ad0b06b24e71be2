(* C164: the charged-current interactions of sterile neutrinos. *)
From Coq Require Import Reals Lra Permutation ZArith.
From Verif Require Import Base FunctionalModel FunctionalProofs CrossModel CrossProofs CrossProofs2 CrossProofs3 CrossProofs4 ParamsModel ParamsProofs LibModel LibProofs Lib2Proofs Lib3Proofs MatrixModel Matrix2Proofs MatrixProps RelabelProofs LedgerProofs LedgerProps ShapeProofs TermProofs WeakTableProofs WeakTableProps ReciprocityProofs ReciprocityProps ImbalanceProofs ImbalanceProps CurrentProofs.
Open Scope R_scope.
Local Notation length := List.length.

(* the integrals of the two interactions that NuMSM.py:190-206 adds for a sterile
   neutrino n, a neutrino v and charged leptons l and ol: those in which n and ol
   are on different sides *)
Definition current_of (n v l ol : lib) (theta : R) (out : list integral) : Prop :=
  exists out0 out1, cross_generating (species_of (fst (sterile_CC n v l ol))) (tflags (fst (sterile_CC n v l ol))) (sterile_CC_Ms theta) = Ok out0 /\
    cross_generating (species_of (snd (sterile_CC n v l ol))) (tflags (snd (sterile_CC n v l ol))) (sterile_CC_Ms theta) = Ok out1 /\
    out = filter (fun o => cc_keep n ol (ireaction o)) out0 ++ filter (fun o => cc_keep n ol (ireaction o)) out1.
(* the sterile neutrino is heavier than the other three together, v belongs to ol *)
Definition decaying (id : nat) (M : Z) (v l ol : lib) : Prop :=
  In v SM_neutrinos /\ In l SM_leptons /\ In ol SM_leptons /\ l <> ol /\ flav v = flav ol /\ (27 <= id)%nat /\ (sum_masses [v; l; ol] < M)%Z.

(* ---------- the computation, for one sterile neutrino ---------- *)
Definition cc_forms : list form := [([0; 2; 1; 3], (true, false))]%nat.
Definition cc_template (n v l ol : lib) (i : bool) : tmpl := (if i then snd else fst) (sterile_CC n v l ol).
Definition cc_pictures (maj : bool) (v l ol : lib) : list picture :=
  flat_map (fun i => map (fun r => (i, r, group (cc_template (N0 maj) v l ol i) r)) (filter (cc_keep (N0 maj) ol) (reactions_of (cc_template (N0 maj) v l ol i)))) [false; true].
Definition first_majorana (r : list item) : bool := match r with h :: _ => majorana (ispecie h) | [] => false end.
Definition checked164 (maj : bool) (v l ol : lib) : bool :=
  let us := cc_pictures maj v l ol in
  forallb (fun u => let g := snd u in
    good cc_forms g && light (gterms cc_forms g) && forallb low (gterms cc_forms g) &&
    (weight (charged_names (company (N0 maj))) (snd (fst u)) =? if first_majorana (snd (fst u)) then 1 else 2)%nat &&
    forallb (fun k => existsb (fun u' => existsb (fun q => facing g k q (snd u')) arrangements4) us &&
      forallb (fun u' => forallb (fun q => if facing g k q (snd u') then same_terms (map canon (map (move q) (gterms cc_forms (snd u')))) (map canon (gterms cc_forms g)) else true) arrangements4) us) four) us &&
  negb (length us =? 0)%nat &&
  forallb (fun i => forallb (fun r => known maj r && (length r =? 4)%nat && in_order r) (reactions_of (cc_template (N0 maj) v l ol i)) && has_N0 (cc_template (N0 maj) v l ol i) &&
    (masses (others_of (cc_template (N0 maj) v l ol i)) =? sum_masses [v; l; ol])%Z)%bool [false; true].
Definition cc_triples : list (lib * lib * lib) :=
  filter (fun q => let '(v, l, ol) := q in (negb (sid (sp l) =? sid (sp ol))%nat && flav_eqb (flav v) (flav ol))%bool) (list_prod (list_prod SM_neutrinos SM_leptons) SM_leptons).
Lemma all_checked164 : forallb (fun q => let '(v, l, ol) := q in forallb (fun maj => checked164 maj v l ol) [true; false]) cc_triples = true.
Proof. vm_compute. reflexivity. Qed.

(* ---------- any sterile neutrino ---------- *)
Lemma triples_in v l ol : In v SM_neutrinos -> In l SM_leptons -> In ol SM_leptons -> l <> ol -> flav v = flav ol -> In (v, l, ol) cc_triples.
Proof.
  intros A B C N F. apply filter_In. split; [repeat apply in_prod; assumption|]. rewrite (proj2 (flav_eqb_eq _ _) F), Bool.andb_true_r. apply Bool.negb_true_iff, Nat.eqb_neq. intros E. apply N, id_eq; auto using in_ll.
Qed.
Lemma current_facts maj id M v l ol : decaying id M v l ol -> checked164 maj v l ol = true /\
  forall i, reactions_of (cc_template (NN maj id M) v l ol i) = map (map (relabel (swap id M))) (reactions_of (cc_template (N0 maj) v l ol i)) /\
    (forall r, In r (reactions_of (cc_template (N0 maj) v l ol i)) -> drawn (map sp (company (N0 maj))) r /\ length r = 4%nat) /\ (forall r, In r (reactions_of (cc_template (N0 maj) v l ol i)) -> in_order r = true).
Proof.
  intros (Hv & Hl & Ho & N & F & Hid & HM). pose proof all_checked164 as C. rewrite forallb_forall in C. specialize (C _ (triples_in v l ol Hv Hl Ho N F)). cbn beta iota in C. rewrite forallb_forall in C.
  specialize (C maj ltac:(destruct maj; cbn; tauto)). split; [exact C|]. intros i. unfold checked164 in C. apply andb_prop in C. destruct C as [_ C]. rewrite forallb_forall in C. specialize (C i ltac:(destruct i; cbn; tauto)).
  apply andb_prop in C. destruct C as [C C3]. apply andb_prop in C. destruct C as [C1 C2]. apply Z.eqb_eq in C3. split; [|split].
  - apply reactions_swap; [exact C2| |exact Hid|rewrite C3; exact HM].
    assert (Ev : swap id M (sp v) = sp v) by now apply SM_unswapped, neutrinos_in. assert (El : swap id M (sp l) = sp l) by now apply SM_unswapped, leptons_in. assert (Eo : swap id M (sp ol) = sp ol) by now apply SM_unswapped, leptons_in.
    destruct i; (split; [reflexivity|]); unfold cc_template, species_of, sterile_CC, tmpl22; cbn [fst snd tparts map]; now rewrite swap_N0, Ev, El, Eo.
  - intros r Hr. rewrite forallb_forall in C1. specialize (C1 r Hr). apply andb_prop in C1. destruct C1 as [C1 _]. apply andb_prop in C1. destruct C1 as [C1 C4]. apply Nat.eqb_eq in C4. split; [now apply known_drawn|exact C4].
  - intros r Hr. rewrite forallb_forall in C1. specialize (C1 r Hr). now apply andb_prop in C1.
Qed.
Lemma current_hyps maj id M v l ol theta i : decaying id M v l ol -> interaction_ok (cc_template (NN maj id M) v l ol i) (sterile_CC_Ms theta).
Proof.
  intros (Hv & Hl & Ho & N & F & Hid & HM). split; [destruct i; split; reflexivity|]. split; [|split; [now destruct i|]].
  - apply (told_incl (NN maj id M :: SM_neutrinos ++ SM_leptons)).
    + intros x Hx. assert (HX : x = NN maj id M \/ x = v \/ x = l \/ x = ol) by (destruct i; cbn in Hx; intuition auto).
      destruct HX as [E|[E|[E|E]]]; rewrite E; [now left|right; apply in_or_app; now left|right; apply in_or_app; now right..].
    + apply nodup_told.
      * cbn. constructor; [|repeat (constructor; [cbn; intuition discriminate|]); constructor]. replace (sid (sp (NN maj id M))) with id by (now destruct maj). cbn. intuition lia.
      * destruct maj; cbn; repeat (constructor; [cbn; intuition discriminate|]); constructor.
  - constructor; [eexists _, _, _; split; [reflexivity|apply perm4b; reflexivity]|constructor].
Qed.
Lemma current_exists maj id M v l ol theta : decaying id M v l ol -> exists out, current_of (NN maj id M) v l ol theta out.
Proof.
  intros HS. destruct (exists_integrals _ _ (current_hyps maj id M v l ol theta false HS)) as (out0 & E0). destruct (exists_integrals _ _ (current_hyps maj id M v l ol theta true HS)) as (out1 & E1).
  eexists. exists out0, out1. split; [exact E0|]. split; [exact E1|reflexivity].
Qed.
(* every integral comes from a picture, every picture has an integral *)
Definition stems (maj : bool) (id : nat) (M : Z) (v l ol : lib) (theta : R) (i : bool) (r : list item) (o : integral) : Prop :=
  drawn (map sp (company (N0 maj))) r /\ length r = 4%nat /\ map ispecie (ireaction o) = map (swap id M) (map ispecie r) /\ map iside (ireaction o) = map iside r /\
  forall p m, total (Ms o) p m = shapes_amplitude (snd (group (cc_template (N0 maj) v l ol i) r)) (sterile_CC_Ms theta) p m.
Lemma in_pictures maj v l ol i r : In r (filter (cc_keep (N0 maj) ol) (reactions_of (cc_template (N0 maj) v l ol i))) -> In (i, r, group (cc_template (N0 maj) v l ol i) r) (cc_pictures maj v l ol).
Proof. intros H. apply in_flat_map. exists i. split; [destruct i; cbn; tauto|]. apply in_map_iff. now exists r. Qed.
Lemma stemming maj id M v l ol theta out o : decaying id M v l ol -> current_of (NN maj id M) v l ol theta out -> In o out ->
  exists i r, In (i, r, group (cc_template (N0 maj) v l ol i) r) (cc_pictures maj v l ol) /\ stems maj id M v l ol theta i r o.
Proof.
  intros HS (out0 & out1 & E0 & E1 & ->) Ho. destruct (current_facts maj id M v l ol HS) as (_ & HF).
  assert (HX : exists i outi, cross_generating (species_of (cc_template (NN maj id M) v l ol i)) (tflags (cc_template (NN maj id M) v l ol i)) (sterile_CC_Ms theta) = Ok outi /\ In o outi /\ cc_keep (NN maj id M) ol (ireaction o) = true).
  { apply in_app_or in Ho. destruct Ho as [Ho|Ho]; apply filter_In in Ho; destruct Ho as [Ho HK]; [exists false, out0|exists true, out1]; auto. }
  destruct HX as (i & outi & E & Hi & HK). destruct (HF i) as (ER & HD & _).
  destruct (from_reaction maj id M _ _ _ (proj1 (proj2 (proj2 (proj2 (proj2 (proj2 HS)))))) ER HD (current_hyps maj id M v l ol theta i HS) outi o E Hi) as (r & Hr & R1 & R2 & R3).
  destruct (HD r Hr) as (D & L). exists i, r. split; [|repeat split; assumption]. apply in_pictures, filter_In. split; [exact Hr|]. now rewrite <- (cc_keep_same maj id M ol (ireaction o) r R1 R2).
Qed.
Lemma yielding maj id M v l ol theta out u : decaying id M v l ol -> current_of (NN maj id M) v l ol theta out -> In u (cc_pictures maj v l ol) ->
  exists i r o, u = (i, r, group (cc_template (N0 maj) v l ol i) r) /\ In o out /\ map ispecie (ireaction o) = map (swap id M) (map ispecie r) /\ map iside (ireaction o) = map iside r.
Proof.
  intros HS (out0 & out1 & E0 & E1 & ->) Hu. apply in_flat_map in Hu. destruct Hu as (i & _ & Hu). apply in_map_iff in Hu. destruct Hu as (r & <- & Hr). apply filter_In in Hr. destruct Hr as [Hr HK].
  destruct (current_facts maj id M v l ol HS) as (_ & HF). destruct (HF i) as (ER & HD & HO). exists i, r.
  assert (HX : exists outi, cross_generating (species_of (cc_template (NN maj id M) v l ol i)) (tflags (cc_template (NN maj id M) v l ol i)) (sterile_CC_Ms theta) = Ok outi /\
    incl (filter (fun o => cc_keep (NN maj id M) ol (ireaction o)) outi) (filter (fun o => cc_keep (NN maj id M) ol (ireaction o)) out0 ++ filter (fun o => cc_keep (NN maj id M) ol (ireaction o)) out1)).
  { destruct i; [exists out1|exists out0]; (split; [assumption|]); intros x Hx; apply in_or_app; auto. }
  destruct HX as (outi & E & HI). destruct (to_integral maj id M _ _ _ (proj1 (proj2 (proj2 (proj2 (proj2 (proj2 HS)))))) ER HD HO (current_hyps maj id M v l ol theta i HS) outi r E Hr) as (o & Ho & R1 & R2).
  exists o. split; [reflexivity|]. split; [|auto]. apply HI, filter_In. split; [exact Ho|]. now rewrite (cc_keep_same maj id M ol _ _ R1 R2).
Qed.
Lemma picture_checked maj v l ol u : checked164 maj v l ol = true -> In u (cc_pictures maj v l ol) -> good cc_forms (snd u) = true /\ light (gterms cc_forms (snd u)) = true /\ forallb low (gterms cc_forms (snd u)) = true /\
  weight (charged_names (company (N0 maj))) (snd (fst u)) = (if first_majorana (snd (fst u)) then 1 else 2)%nat /\
  forall k, (k < 4)%nat -> (exists u' q, In u' (cc_pictures maj v l ol) /\ Permutation q four /\ facing (snd u) k q (snd u') = true) /\
    forall u' q, In u' (cc_pictures maj v l ol) -> Permutation q four -> facing (snd u) k q (snd u') = true -> same_terms (map canon (map (move q) (gterms cc_forms (snd u')))) (map canon (gterms cc_forms (snd u))) = true.
Proof.
  intros C Hu. unfold checked164 in C. apply andb_prop in C. destruct C as [C _]. apply andb_prop in C. destruct C as [C _]. rewrite forallb_forall in C. specialize (C u Hu). cbn zeta beta in C.
  apply andb_prop in C. destruct C as [C C5]. apply andb_prop in C. destruct C as [C C4]. apply andb_prop in C. destruct C as [C C3]. apply andb_prop in C. destruct C as [C1 C2]. apply Nat.eqb_eq in C4.
  repeat (split; [assumption|]). intros k Hk. rewrite forallb_forall in C5. specialize (C5 k (proj2 (in_four k) Hk)). apply andb_prop in C5. destruct C5 as [C5 C6]. split.
  - apply existsb_exists in C5. destruct C5 as (u' & Hu' & C5). apply existsb_exists in C5. destruct C5 as (q & Hq & C5). exists u', q. split; [exact Hu'|]. split; [now apply arrangements4_iff|exact C5].
  - intros u' q Hu' Hq HF. rewrite forallb_forall in C6. specialize (C6 u' Hu'). rewrite forallb_forall in C6. specialize (C6 q (proj2 (arrangements4_iff q) Hq)). now rewrite HF in C6.
Qed.
Definition cc_coupling (theta : R) : R := 4 * (32 * G_Fermi ^ 2) * theta ^ 2.
Lemma current_formed theta : formed (fun _ => cc_coupling theta) (fun _ => 0 * (32 * G_Fermi ^ 2) * theta ^ 2) 0 cc_forms (sterile_CC_Ms theta).
Proof. apply formed_cons; [discriminate|intros _; ring|apply formed_nil]. Qed.

(* ---------- C164 ---------- *)
(* every integral, looked at from each of its participants, is an integral of that
   participant, and whichever integral is about the events has their amplitude *)
Theorem C164_same : forall maj id M v l ol theta out o o' k q, decaying id M v l ol -> current_of (NN maj id M) v l ol theta out -> In o out -> In o' out -> (k < 4)%nat ->
  turns q o k o' -> seen_through q o k o'.
Proof.
  intros maj id M v l ol theta out o o' k q HS HC Ho Ho' Hk HT. assert (Hid : (27 <= id)%nat) by apply HS. destruct (current_facts maj id M v l ol HS) as (CH & _).
  destruct (stemming maj id M v l ol theta out o HS HC Ho) as (i & r & Hu & D & L & R1 & R2 & R3). destruct (stemming maj id M v l ol theta out o' HS HC Ho') as (i' & r' & Hu' & D' & L' & R1' & R2' & R3').
  assert (HT' := HT). destruct HT' as (P & Q & HX). split; [exact P|]. split; [exact Q|]. split; [exact HX|]. intros p.
  apply (turns_facing maj id M o o' (cc_template (N0 maj) v l ol i) (cc_template (N0 maj) v l ol i') r r' q k Hid) in HT; auto using group_incl.
  destruct (picture_checked _ _ _ _ _ CH Hu) as (G1 & G2 & G3 & _ & G). cbn [fst snd] in *. destruct (G k Hk) as (_ & GS). specialize (GS _ q Hu' P HT). cbn [fst snd] in GS. destruct (picture_checked _ _ _ _ _ CH Hu') as (G1' & G2' & G3' & _). cbn [fst snd] in *.
  rewrite (amplitude_terms maj id M cc_forms _ _ _ _ r' o' _ Hid (current_formed theta) eq_refl G1' D' R1' R2' R3'), (amplitude_terms maj id M cc_forms _ _ _ _ r o _ Hid (current_formed theta) eq_refl G1 D R1 R2 R3).
  rewrite (eval_move _ _ q p (mass_at o') (mass_at o)); [now apply same_eval| |exact G3']. intros j Hj. rewrite !mass_species. destruct (HX j Hj) as (-> & _). reflexivity.
Qed.
Print Assumptions C164_same.
Theorem C164_reciprocity : forall maj id M v l ol theta out o k, decaying id M v l ol -> current_of (NN maj id M) v l ol theta out -> In o out -> (k < 4)%nat ->
  exists o' q, In o' out /\ seen_through q o k o'.
Proof.
  intros maj id M v l ol theta out o k HS HC Ho Hk. assert (Hid : (27 <= id)%nat) by apply HS. destruct (current_facts maj id M v l ol HS) as (CH & HF).
  destruct (stemming maj id M v l ol theta out o HS HC Ho) as (i & r & Hu & D & L & R1 & R2 & R3). destruct (picture_checked _ _ _ _ _ CH Hu) as (_ & _ & _ & _ & G). destruct (G k Hk) as ((u' & q & Hu' & P & FA) & _).
  destruct (yielding maj id M v l ol theta out u' HS HC Hu') as (i' & r' & o' & -> & Ho' & R1' & R2'). exists o', q. split; [exact Ho'|]. cbn [fst snd] in *.
  apply (C164_same maj id M v l ol theta out); auto. destruct (stemming maj id M v l ol theta out o' HS HC Ho') as (j & r2 & _ & D2 & _ & S1 & _).
  apply (turns_facing maj id M o o' (cc_template (N0 maj) v l ol i) (cc_template (N0 maj) v l ol i') r r' q k Hid); auto using group_incl.
  apply group_incl. apply in_flat_map in Hu'. destruct Hu' as (i2 & _ & Hu'). apply in_map_iff in Hu'. destruct Hu' as (r3 & E & Hr). injection E as -> -> _. apply filter_In in Hr. destruct Hr as [Hr _]. destruct (HF i') as (_ & HD & _). now apply HD.
Qed.
Print Assumptions C164_reciprocity.
(* the weight of an event in the equation of a particle: one for a Majorana
   sterile neutrino, two for all others *)
Theorem C164_weight : forall maj id M v l ol theta out o ks, decaying id M v l ol -> current_of (NN maj id M) v l ol theta out -> In o out -> sees ks (company (NN maj id M)) ->
  length (ireaction o) = 4%nat /\ side_at o 0 = (-1)%Z /\ (forall it, In it (ireaction o) -> iside it = (-1)%Z \/ iside it = 1%Z) /\
  number_weight ks (ireaction o) = Ok (if first_majorana (ireaction o) then 1 else 2).
Proof.
  intros maj id M v l ol theta out o ks HS HC Ho HK. assert (Hid : (27 <= id)%nat) by apply HS. destruct (current_facts maj id M v l ol HS) as (CH & HF).
  destruct (stemming maj id M v l ol theta out o HS HC Ho) as (i & r & Hu & D & L & R1 & R2 & R3). destruct (picture_checked _ _ _ _ _ CH Hu) as (G1 & _ & _ & G2 & _). cbn [fst snd] in *.
  unfold good, group in G1. cbn [fst snd] in G1. apply andb_prop in G1. destruct G1 as [G1 G5]. apply andb_prop in G1. destruct G1 as [G1 G4]. apply andb_prop in G1. destruct G1 as [_ G3]. apply Z.eqb_eq in G3.
  split; [rewrite <- (map_length iside), R2, map_length; exact L|]. split; [rewrite (proj2 (places id M o (cc_template (N0 maj) v l ol i) r R1 R2 0)); exact G3|]. split.
  - intros it Hi. rewrite forallb_forall in G5. assert (X : In (iside it) (map iside r)) by (rewrite <- R2; now apply in_map). apply G5 in X. apply orb_prop in X. destruct X as [X|X]; apply Z.eqb_eq in X; auto.
  - rewrite (weight_of maj id M ks r o Hid HK D L R1 R2), G2. replace (first_majorana (ireaction o)) with (first_majorana r); [now destruct (first_majorana r)|].
    destruct r as [|x r], (ireaction o) as [|y s]; try discriminate. cbn [map] in R1. injection R1 as R1 _. cbn [first_majorana]. rewrite R1. symmetry. apply swap_kind.
Qed.
Print Assumptions C164_weight.

(* one event changes the numbers of all its participants alike if the sterile
   neutrino is of the Dirac kind *)
Lemma firsts_checked : forallb (fun t => let '(v, l, ol) := t in forallb (fun maj => forallb (fun u =>
    Bool.eqb (first_majorana (snd (fst u))) (maj && opt_same (gspecie (snd u) 0) (Some (sp (N0 maj)))) &&
    forallb (fun k => negb (opt_same (gspecie (snd u) k) (Some (sp (N0 maj))) && opt_same (gspecie (snd u) 0) (Some (sp (N0 maj))))) [1; 2; 3]%nat)%bool (cc_pictures maj v l ol)) [true; false]) cc_triples = true.
Proof. vm_compute. reflexivity. Qed.
Lemma picture_first maj id M v l ol u : decaying id M v l ol -> In u (cc_pictures maj v l ol) ->
  first_majorana (snd (fst u)) = (maj && opt_same (gspecie (snd u) 0) (Some (sp (N0 maj))))%bool /\
  forall k, (0 < k < 4)%nat -> (opt_same (gspecie (snd u) k) (Some (sp (N0 maj))) && opt_same (gspecie (snd u) 0) (Some (sp (N0 maj))))%bool = false.
Proof.
  intros (Hv & Hl & Hol & N & F & _) Hu. pose proof firsts_checked as C. rewrite forallb_forall in C. specialize (C _ (triples_in v l ol Hv Hl Hol N F)). cbn beta iota in C. rewrite forallb_forall in C. specialize (C maj ltac:(destruct maj; cbn; tauto)).
  rewrite forallb_forall in C. specialize (C u Hu). apply andb_prop in C. destruct C as [C1 C2]. split; [now apply Bool.eqb_prop|]. intros k Hk. rewrite forallb_forall in C2. apply Bool.negb_true_iff, C2. destruct k as [|[|[|[|k]]]]; cbn; lia || tauto.
Qed.
Lemma first_same id M x r : map ispecie x = map (swap id M) (map ispecie r) -> first_majorana x = first_majorana r.
Proof. destruct r as [|y r], x as [|z x]; try discriminate; [reflexivity|]. cbn [map]. intros E. injection E as E _. cbn [first_majorana]. rewrite E. apply swap_kind. Qed.
(* where the sterile neutrino is *)
Lemma sterile_at maj id M v l ol o i r j : decaying id M v l ol -> drawn (map sp (company (N0 maj))) r -> map ispecie (ireaction o) = map (swap id M) (map ispecie r) -> map iside (ireaction o) = map iside r ->
  species_at o j = Some (sp (NN maj id M)) <-> opt_same (gspecie (group (cc_template (N0 maj) v l ol i) r) j) (Some (sp (N0 maj))) = true.
Proof.
  intros HS D R1 R2. assert (Hid : (27 <= id)%nat) by apply HS. rewrite (proj1 (places id M o (cc_template (N0 maj) v l ol i) r R1 R2 j)). split.
  - intros Z. rewrite <- (opt_same_relabel (swap id M) (map sp (company (N0 maj)))); [|now apply swap_species|intros z Hz; eapply gspecie_in; [apply group_incl; exact D|exact Hz]|intros z Hz; injection Hz as <-; now left].
    rewrite Z. cbn [option_map]. rewrite swap_N0. cbn. unfold specie_eqb. now rewrite Nat.eqb_refl, String.eqb_refl, Z.eqb_refl, Bool.eqb_reflx.
  - intros Z. apply opt_same_eq in Z. rewrite Z. cbn [option_map]. now rewrite swap_N0.
Qed.
Lemma dirac_first id M v l ol theta out o : decaying id M v l ol -> current_of (NN false id M) v l ol theta out -> In o out -> first_majorana (ireaction o) = false.
Proof.
  intros HS HC Ho. destruct (stemming false id M v l ol theta out o HS HC Ho) as (i & r & Hu & D & L & R1 & _). rewrite (first_same id M _ _ R1). exact (proj1 (picture_first false id M v l ol _ HS Hu)).
Qed.
Lemma current_rate maj id M v l ol theta out o o' ks E x k q : decaying id M v l ol -> current_of (NN maj id M) v l ol theta out -> sees ks (company (NN maj id M)) -> In o out -> In o' out -> (k < 4)%nat -> (forall j, 0 <= x j) ->
  turns q o k o' -> forall p, exists a, event_rate ks E o x p = Ok ((if first_majorana (ireaction o) then 1 else 2) * a) /\
    event_rate ks E o' (fun j => x (moved q j)) (fun j => p (moved q j)) = Ok (- IZR (side_at o k) * ((if first_majorana (ireaction o') then 1 else 2) * a)).
Proof.
  intros HS HC HK Ho Ho' Hk Hx HT p. destruct (C164_weight maj id M v l ol theta out o ks HS HC Ho HK) as (A1 & A2 & A3 & A4). destruct (C164_weight maj id M v l ol theta out o' ks HS HC Ho' HK) as (B1 & B2 & B3 & B4).
  destruct (turned_functional E o o' k q x HT A1 B1 A2 B2 A3 Hk Hx) as (w & V1 & V2). destruct (C164_same maj id M v l ol theta out o o' k q HS HC Ho Ho' Hk HT) as (_ & _ & _ & EA).
  exists (event_amplitude o p * w). unfold event_rate. rewrite A4, B4. cbn [rbind]. rewrite V1, V2. cbn [rbind]. rewrite EA. split; f_equal; ring.
Qed.
Theorem C164_rates : forall id M v l ol theta out o o' ks E x p k q, let n := dirac_sterile_neutrino id M in
  decaying id M v l ol -> current_of n v l ol theta out -> sees ks (company n) -> In o out -> In o' out -> (k < 4)%nat -> (forall j, 0 <= x j) -> turns q o k o' ->
  exists w, event_rate ks E o x p = Ok w /\ event_rate ks E o' (fun j => x (moved q j)) (fun j => p (moved q j)) = Ok (- IZR (side_at o k) * w).
Proof.
  intros id M v l ol theta out o o' ks E x p k q n HS HC HK Ho Ho' Hk Hx HT. change n with (NN false id M) in *.
  destruct (current_rate false id M v l ol theta out o o' ks E x k q HS HC HK Ho Ho' Hk Hx HT p) as (a & R1 & R2). rewrite (dirac_first id M v l ol theta out o HS HC Ho) in R1. rewrite (dirac_first id M v l ol theta out o' HS HC Ho') in R2.
  exists (2 * a). auto.
Qed.
Print Assumptions C164_rates.
Theorem C164_energy : forall id M v l ol theta out o ks E, let n := dirac_sterile_neutrino id M in
  decaying id M v l ol -> current_of n v l ol theta out -> sees ks (company n) -> In o out -> balanced ks E out o.
Proof.
  intros id M v l ol theta out o ks E n HS HC HK Ho. change n with (NN false id M) in *.
  assert (HR : forall k, (k < 4)%nat -> exists o' q, In o' out /\ turns q o k o').
  { intros k Hk. destruct (C164_reciprocity false id M v l ol theta out o k HS HC Ho Hk) as (o' & q & Ho' & T). exists o', q. split; [exact Ho'|now apply seen_turns]. }
  destruct (HR 0%nat ltac:(lia)) as (o0 & q0 & A0 & B0). destruct (HR 1%nat ltac:(lia)) as (o1 & q1 & A1 & B1). destruct (HR 2%nat ltac:(lia)) as (o2 & q2 & A2 & B2). destruct (HR 3%nat ltac:(lia)) as (o3 & q3 & A3 & B3).
  exists (fun k => nth k [o0; o1; o2; o3] o), (fun k => nth k [q0; q1; q2; q3] []). split.
  - intros [|[|[|[|k]]]] Hk; cbn [nth]; auto. lia.
  - intros x p w Hx HP HV. pose proof (HV 0%nat ltac:(lia)) as V0. pose proof (HV 1%nat ltac:(lia)) as V1. pose proof (HV 2%nat ltac:(lia)) as V2. pose proof (HV 3%nat ltac:(lia)) as V3. cbn [nth] in V0, V1, V2, V3.
    destruct (C164_rates id M v l ol theta out o o0 ks E x p 0 q0 HS HC HK Ho A0 ltac:(lia) Hx B0) as (u & U & W0). destruct (C164_rates id M v l ol theta out o o1 ks E x p 1 q1 HS HC HK Ho A1 ltac:(lia) Hx B1) as (u1 & U' & W1). rewrite U in U'. injection U' as <-.
    destruct (C164_rates id M v l ol theta out o o2 ks E x p 2 q2 HS HC HK Ho A2 ltac:(lia) Hx B2) as (u2 & U' & W2). rewrite U in U'. injection U' as <-. destruct (C164_rates id M v l ol theta out o o3 ks E x p 3 q3 HS HC HK Ho A3 ltac:(lia) Hx B3) as (u3 & U' & W3). rewrite U in U'. injection U' as <-.
    rewrite W0 in V0. rewrite W1 in V1. rewrite W2 in V2. rewrite W3 in V3. injection V0 as <-. injection V1 as <-. injection V2 as <-. injection V3 as <-.
    destruct HP as (_ & HE). specialize (HE energy (or_introl eq_refl)).
    replace (_ + _ + _ + _) with (- u * (IZR (side_at o 0) * energy (p 0%nat) + IZR (side_at o 1) * energy (p 1%nat) + IZR (side_at o 2) * energy (p 2%nat) + IZR (side_at o 3) * energy (p 3%nat))) by ring.
    rewrite HE. ring.
Qed.
Print Assumptions C164_energy.
(* a Majorana one: the others change twice as much as the sterile neutrino *)
Lemma majorana_first id M v l ol theta out o : decaying id M v l ol -> current_of (NN true id M) v l ol theta out -> In o out ->
  first_majorana (ireaction o) = true <-> species_at o 0 = Some (sp (NN true id M)).
Proof.
  intros HS HC Ho. destruct (stemming true id M v l ol theta out o HS HC Ho) as (i & r & Hu & D & L & R1 & R2 & _). rewrite (first_same id M _ _ R1), (sterile_at true id M v l ol o i r 0 HS D R1 R2).
  pose proof (proj1 (picture_first true id M v l ol _ HS Hu)) as X. cbn [fst snd] in X. now rewrite X.
Qed.
Lemma sterile_once maj id M v l ol theta out o k : decaying id M v l ol -> current_of (NN maj id M) v l ol theta out -> In o out -> (0 < k < 4)%nat ->
  species_at o 0 = Some (sp (NN maj id M)) -> species_at o k <> Some (sp (NN maj id M)).
Proof.
  intros HS HC Ho Hk A B. destruct (stemming maj id M v l ol theta out o HS HC Ho) as (i & r & Hu & D & L & R1 & R2 & _). apply (sterile_at maj id M v l ol o i r _ HS D R1 R2) in A, B.
  pose proof (proj2 (picture_first maj id M v l ol _ HS Hu) k Hk) as X. cbn [snd] in X. rewrite A, B in X. discriminate.
Qed.
Theorem C164_majorana_refuted : forall id M v l ol theta out o ks E x p, let n := sterile_neutrino id M in
  decaying id M v l ol -> current_of n v l ol theta out -> sees ks (company n) -> In o out -> species_at o 0 = Some (sp n) -> (forall j, 0 <= x j) ->
  (forall k o' q, (0 < k < 4)%nat -> In o' out -> turns q o k o' -> 
    exists w, event_rate ks E o x p = Ok w /\ event_rate ks E o' (fun j => x (moved q j)) (fun j => p (moved q j)) = Ok (- IZR (side_at o k) * (2 * w))) /\
  forall (os : nat -> integral) (qs : nat -> list nat) w, (forall k, (k < 4)%nat -> In (os k) out /\ turns (qs k) o k (os k)) -> possible o p ->
    (forall k, (k < 4)%nat -> event_rate ks E (os k) (fun j => x (moved (qs k) j)) (fun j => p (moved (qs k) j)) = Ok (w k)) -> w 0%nat <> 0 ->
    energy (p 0%nat) * w 0%nat + energy (p 1%nat) * w 1%nat + energy (p 2%nat) * w 2%nat + energy (p 3%nat) * w 3%nat <> 0.
Proof.
  intros id M v l ol theta out o ks E x p n HS HC HK Ho HN Hx. change n with (NN true id M) in *.
  assert (HF := proj2 (majorana_first id M v l ol theta out o HS HC Ho) HN).
  assert (ON : forall k o' q, (0 < k < 4)%nat -> In o' out -> turns q o k o' -> first_majorana (ireaction o') = false).
  { intros k o' q Hk Ho' (P & Q & HT). apply Bool.not_true_iff_false. intros X. apply (majorana_first id M v l ol theta out o' HS HC Ho') in X. destruct (HT 0%nat ltac:(lia)) as (Y & _). rewrite Q, X in Y.
    symmetry in Y. exact (sterile_once true id M v l ol theta out o k HS HC Ho Hk HN Y). }
  assert (HR : forall k o' q, (0 < k < 4)%nat -> In o' out -> turns q o k o' -> exists w, event_rate ks E o x p = Ok w /\ event_rate ks E o' (fun j => x (moved q j)) (fun j => p (moved q j)) = Ok (- IZR (side_at o k) * (2 * w))).
  { intros k o' q Hk Ho' HT. destruct (current_rate true id M v l ol theta out o o' ks E x k q HS HC HK Ho Ho' ltac:(lia) Hx HT p) as (a & R1 & R2). rewrite HF in R1. rewrite (ON k o' q Hk Ho' HT) in R2. exists (1 * a). split; [exact R1|]. rewrite R2. f_equal. ring. }
  split; [exact HR|]. intros os qs w HO HP HV H0.
  destruct (HO 0%nat ltac:(lia)) as (A0 & B0). destruct (HO 1%nat ltac:(lia)) as (A1 & B1). destruct (HO 2%nat ltac:(lia)) as (A2 & B2). destruct (HO 3%nat ltac:(lia)) as (A3 & B3).
  pose proof (HV 0%nat ltac:(lia)) as V0. pose proof (HV 1%nat ltac:(lia)) as V1. pose proof (HV 2%nat ltac:(lia)) as V2. pose proof (HV 3%nat ltac:(lia)) as V3.
  destruct (HR 1%nat _ _ ltac:(lia) A1 B1) as (u & U & W1). destruct (HR 2%nat _ _ ltac:(lia) A2 B2) as (u2 & U' & W2). rewrite U in U'. injection U' as <-. destruct (HR 3%nat _ _ ltac:(lia) A3 B3) as (u3 & U' & W3). rewrite U in U'. injection U' as <-.
  destruct (current_rate true id M v l ol theta out o (os 0%nat) ks E x 0 _ HS HC HK Ho A0 ltac:(lia) Hx B0 p) as (a & R1 & R2). rewrite HF in R1. 
  assert (F0 : first_majorana (ireaction (os 0%nat)) = true) by (apply (majorana_first id M v l ol theta out (os 0%nat) HS HC A0); destruct B0 as (_ & Q & HT); destruct (HT 0%nat ltac:(lia)) as (-> & _); now rewrite Q).
  rewrite F0 in R2. rewrite U in R1. injection R1 as ->.
  rewrite R2 in V0. rewrite W1 in V1. rewrite W2 in V2. rewrite W3 in V3. injection V0 as V0. injection V1 as V1. injection V2 as V2. injection V3 as V3. rewrite <- V1, <- V2, <- V3.
  destruct (C164_weight true id M v l ol theta out o ks HS HC Ho HK) as (_ & S0 & _). rewrite S0 in V0. rewrite <- V0 in *. destruct HP as (HP & HE). specialize (HE energy (or_introl eq_refl)). destruct (HP 0%nat ltac:(lia)) as (EP & _). rewrite S0 in HE.
  replace (energy (p 0%nat) * (- -1 * (1 * a)) + _ + _ + _) with (- (1 * a) * energy (p 0%nat) - 2 * (1 * a) * (-1 * energy (p 0%nat) + IZR (side_at o 1) * energy (p 1%nat) + IZR (side_at o 2) * energy (p 2%nat) + IZR (side_at o 3) * energy (p 3%nat))) by ring.
  rewrite HE. intros Z. assert (Z' : (- -1 * (1 * a)) * energy (p 0%nat) = 0) by lra. apply Rmult_integral in Z'. destruct Z' as [Z'|Z']; [now apply H0|lra].
Qed.
Print Assumptions C164_majorana_refuted.

(* the events of the sterile neutrino: its decay, its scattering off neutrinos and
   off l; what it would do in scattering off ol is missing from all equations *)
Definition event_of (species : list specie) (sides : list Z) (o : integral) : Prop :=
  exists q, Permutation q four /\ moved q 0 = 0%nat /\ forall j, (j < 4)%nat -> species_at o j = nth_error species (moved q j) /\ side_at o j = nth (moved q j) sides 0%Z.
Definition cc_events : list (list Z) := [[-1; 1; 1; 1]; [-1; -1; 1; 1]; [-1; 1; -1; 1]]%Z.
Lemma events_checked : forallb (fun t => let '(v, l, ol) := t in forallb (fun maj => 
    forallb (fun sides => existsb (fun u => existsb (fun q => facing (map sp [N0 maj; v; l; ol], sides, []) 0 q (snd u)) arrangements4) (cc_pictures maj v l ol)) cc_events &&
    forallb (fun u => forallb (fun j => forallb (fun j' =>
      if (opt_same (gspecie (snd u) j) (Some (sp (N0 maj))) && opt_same (gspecie (snd u) j') (Some (sp ol)))%bool then (gside (snd u) j =? - gside (snd u) j')%Z else true) four) four) (cc_pictures maj v l ol))%bool [true; false]) cc_triples = true.
Proof. vm_compute. reflexivity. Qed.
Lemma unfolded_events maj id M v l ol : decaying id M v l ol ->
  (forall sides, In sides cc_events -> exists u q, In u (cc_pictures maj v l ol) /\ Permutation q four /\ facing (map sp [N0 maj; v; l; ol], sides, []) 0 q (snd u) = true) /\
  forall u j j', In u (cc_pictures maj v l ol) -> (j < 4)%nat -> (j' < 4)%nat -> opt_same (gspecie (snd u) j) (Some (sp (N0 maj))) = true -> opt_same (gspecie (snd u) j') (Some (sp ol)) = true -> gside (snd u) j = (- gside (snd u) j')%Z.
Proof.
  intros (Hv & Hl & Hol & N & F & _). pose proof events_checked as C. rewrite forallb_forall in C. specialize (C _ (triples_in v l ol Hv Hl Hol N F)). cbn beta iota in C. rewrite forallb_forall in C. specialize (C maj ltac:(destruct maj; cbn; tauto)).
  apply andb_prop in C. destruct C as [C1 C2]. rewrite forallb_forall in C1, C2. split.
  - intros sides Hs. specialize (C1 sides Hs). apply existsb_exists in C1. destruct C1 as (u & Hu & C1). apply existsb_exists in C1. destruct C1 as (q & Hq & C1). exists u, q. split; [exact Hu|]. split; [now apply arrangements4_iff|exact C1].
  - intros u j j' Hu Hj Hj' A B. specialize (C2 u Hu). rewrite forallb_forall in C2. specialize (C2 j (proj2 (in_four j) Hj)). rewrite forallb_forall in C2. specialize (C2 j' (proj2 (in_four j') Hj')). rewrite A, B in C2. now apply Z.eqb_eq.
Qed.
Theorem C164_events : forall maj id M v l ol theta out, let n := NN maj id M in decaying id M v l ol -> current_of n v l ol theta out ->
  (forall sides, In sides cc_events -> exists o, In o out /\ event_of (map sp [n; v; l; ol]) sides o) /\
  forall o, In o out -> ~ event_of (map sp [n; v; l; ol]) [-1; 1; 1; -1]%Z o /\ forall j j', (j < 4)%nat -> (j' < 4)%nat -> species_at o j = Some (sp n) -> species_at o j' = Some (sp ol) -> side_at o j = (- side_at o j')%Z.
Proof.
  intros maj id M v l ol theta out n HS HC. assert (Hid : (27 <= id)%nat) by apply HS. destruct (unfolded_events maj id M v l ol HS) as (U1 & U2).
  assert (HI := HS). destruct HI as (Iv & Il & Io & _).
  assert (Ev : swap id M (sp v) = sp v) by now apply SM_unswapped, neutrinos_in. assert (El : swap id M (sp l) = sp l) by now apply SM_unswapped, leptons_in. assert (Eo : swap id M (sp ol) = sp ol) by now apply SM_unswapped, leptons_in.
  split.
  - intros sides Hs. destruct (U1 sides Hs) as (u & q & Hu & P & FA). destruct (yielding maj id M v l ol theta out u HS HC Hu) as (i & r & o & -> & Ho & R1 & R2). exists o. split; [exact Ho|]. exists q. split; [exact P|]. cbn [snd] in FA. unfold facing in FA. apply andb_prop in FA. destruct FA as [F0 FA]. apply Nat.eqb_eq in F0. split; [exact F0|].
    intros j Hj. rewrite forallb_forall in FA. specialize (FA j (proj2 (in_four j) Hj)). apply andb_prop in FA. destruct FA as [A B]. apply opt_same_eq in A. apply Z.eqb_eq in B.
    destruct (places id M o (cc_template (N0 maj) v l ol i) r R1 R2 j) as (-> & ->). rewrite A, B. unfold gspecie, gside. cbn [fst snd]. split.
    + replace (map sp [n; v; l; ol]) with (map (swap id M) (map sp [N0 maj; v; l; ol])); [symmetry; apply nth_error_map|]. cbn [map]. now rewrite swap_N0, Ev, El, Eo.
    + assert (HH : nth 0 sides 0%Z = (-1)%Z) by (unfold cc_events in Hs; cbn [In] in Hs; destruct Hs as [<-|[<-|[<-|[]]]]; reflexivity). rewrite HH. lia.
  - intros o Ho. destruct (stemming maj id M v l ol theta out o HS HC Ho) as (i & r & Hu & D & L & R1 & R2 & _).
    assert (OPP : forall j j', (j < 4)%nat -> (j' < 4)%nat -> species_at o j = Some (sp n) -> species_at o j' = Some (sp ol) -> side_at o j = (- side_at o j')%Z).
    { intros j j' Hj Hj' A B. rewrite (proj2 (places id M o (cc_template (N0 maj) v l ol i) r R1 R2 j)), (proj2 (places id M o (cc_template (N0 maj) v l ol i) r R1 R2 j')). apply (U2 _ j j' Hu Hj Hj').
      - now apply (sterile_at maj id M v l ol o i r j HS D R1 R2).
      - cbn [snd]. rewrite (proj1 (places id M o (cc_template (N0 maj) v l ol i) r R1 R2 j')) in B. rewrite <- (opt_same_relabel (swap id M) (map sp (company (N0 maj)))); [|now apply swap_species|intros z Hz; eapply gspecie_in; [apply group_incl; exact D|exact Hz]|].
        + rewrite B. cbn [option_map]. rewrite Eo. cbn. unfold specie_eqb. now rewrite Nat.eqb_refl, String.eqb_refl, Z.eqb_refl, Bool.eqb_reflx.
        + intros z Hz. injection Hz as <-. right. apply in_map. now apply leptons_in. }
    split; [|exact OPP]. intros (q & P & Q & HT).
    assert (H3 : exists j, (j < 4)%nat /\ moved q j = 3%nat).
    { assert (I3 : In 3%nat q) by (apply (Permutation_in _ (Permutation_sym P)); cbn; tauto). apply (In_nth _ _ 0%nat) in I3. destruct I3 as (j & Hj & E). exists j. split; [rewrite (Permutation_length P) in Hj; exact Hj|exact E]. }
    destruct H3 as (j & Hj & E). destruct (HT 0%nat ltac:(lia)) as (A0 & B0). destruct (HT j Hj) as (A & B). rewrite Q in A0, B0. rewrite E in A, B. cbn in A0, B0, A, B. specialize (OPP 0%nat j ltac:(lia) Hj A0 A). rewrite B0, B in OPP. discriminate.
Qed.
Print Assumptions C164_events.

(* N -> e mu nu_mu of a neutrino of 1 GeV *)
Example C164_example : let n := dirac_sterile_neutrino 40 (10 ^ 9)%Z in
  decaying 40 (10 ^ 9) neutrino_mu electron muon /\ (exists out, current_of n neutrino_mu electron muon (1 / 100) out) /\ sees ex_ks (company n) /\
  length (cc_pictures false neutrino_mu electron muon) = 12%nat.
Proof.
  intros n. assert (HD : decaying 40 (10 ^ 9) neutrino_mu electron muon) by (repeat split; cbn; try tauto; try lia; try discriminate; reflexivity).
  split; [exact HD|]. split; [exact (current_exists false 40 (10 ^ 9) neutrino_mu electron muon (1 / 100) HD)|]. split; [apply ex_sees; now left|vm_compute; reflexivity].
Qed.
