(* C165: the scattering of sterile neutrinos off charged leptons. *)
From Coq Require Import Reals Lra Permutation ZArith.
From Verif Require Import Base FunctionalModel FunctionalProofs CrossModel CrossProofs CrossProofs2 CrossProofs3 CrossProofs4 ParamsModel ParamsProofs LibModel LibProofs Lib2Proofs Lib3Proofs MatrixModel Matrix2Proofs MatrixProps RelabelProofs LedgerProofs LedgerProps ShapeProofs TermProofs WeakTableProofs WeakTableProps ReciprocityProofs ReciprocityProps ImbalanceProofs ImbalanceProps CurrentProofs CurrentProps.
Open Scope R_scope.
Local Notation length := List.length.

(* the integrals of the two interactions that NuMSM.py:171-188 adds for a sterile
   neutrino n, a neutrino v and a charged lepton l *)
Definition nc_template (n v l : lib) (i : bool) : tmpl := (if i then snd else fst) (sterile_NC n v l).
Definition nc_kept (n l : lib) (i : bool) (r : list item) : bool :=
  if (String.eqb (lname l) "Muon" || String.eqb (lname l) "Tau")%bool then (nc_keep n l r && if i then negb (String.eqb (first_name r) (lname l)) else true)%bool else true.
Definition neutral_of (n v l : lib) (theta : R) (out : list integral) : Prop :=
  exists out0 out1, cross_generating (species_of (fst (sterile_NC n v l))) (tflags (fst (sterile_NC n v l))) (sterile_NC_Ms theta (g_L_of l v)) = Ok out0 /\
    cross_generating (species_of (snd (sterile_NC n v l))) (tflags (snd (sterile_NC n v l))) (sterile_NC_Ms theta (g_L_of l v)) = Ok out1 /\
    out = filter (fun o => nc_kept n l false (ireaction o)) out0 ++ filter (fun o => nc_kept n l true (ireaction o)) out1.
(* these are the integrals of nc_pair *)
Lemma nc_kept_pair n v l : map snd (nc_pair n v l) = map (fun i => filter (nc_kept n l i) (reactions_of (nc_template n v l i))) [false; true].
Proof.
  unfold nc_pair, nc_template, nc_kept. destruct (sterile_NC n v l) as (t0 & t1). cbn [fst snd map].
  assert (FT : forall l : list (list item), filter (fun _ => true) l = l) by (induction l0 as [|x s IH]; cbn; congruence).
  destruct (_ || _)%bool; cbn [map snd plain]; [|now rewrite !FT]. f_equal.
  - apply filter_ext. intros r. now rewrite Bool.andb_true_r.
  - f_equal. generalize (reactions_of t1). induction l0 as [|r s IH]; [reflexivity|]. cbn [filter]. destruct (nc_keep n l r); cbn [filter andb]; [|exact IH]. destruct (negb (String.eqb (first_name r) (lname l))); now rewrite IH.
Qed.
Definition heavy (id : nat) (M : Z) (v l : lib) : Prop := In v SM_neutrinos /\ In l SM_leptons /\ (27 <= id)%nat /\ (sum_masses [v; l; l] < M)%Z.
Definition nc_pictures (maj : bool) (v l : lib) : list picture :=
  flat_map (fun i => map (fun r => (i, r, group (nc_template (N0 maj) v l i) r)) (filter (nc_kept (N0 maj) l i) (reactions_of (nc_template (N0 maj) v l i)))) [false; true].
(* N l -> v l with the places of v and of the outgoing l either way *)
Definition scattering_group (maj : bool) (v l : lib) : grp := (map sp [N0 maj; l; v; l], [-1; -1; 1; 1]%Z, []).
Definition electronic (l : lib) : bool := String.eqb (lname l) "Electron".
Definition checked165 (maj : bool) (v l : lib) : bool :=
  let us := nc_pictures maj v l in let mine := filter (fun u => existsb (fun q => facing (scattering_group maj v l) 0 q (snd u)) arrangements4) us in
  negb (length mine =? 0)%nat &&
  forallb (fun u => (weight (charged_names (company (N0 maj))) (snd (fst u)) =? if maj then 1 else 2)%nat &&
    forallb (fun k => Bool.eqb (existsb (fun u' => existsb (fun q => facing (snd u) k q (snd u')) arrangements4) us) (electronic l)) [1; 2; 3]%nat) mine &&
  forallb (fun i => forallb (fun r => known maj r && (length r =? 4)%nat && in_order r) (reactions_of (nc_template (N0 maj) v l i)) && has_N0 (nc_template (N0 maj) v l i) &&
    (masses (others_of (nc_template (N0 maj) v l i)) =? sum_masses [v; l; l])%Z)%bool [false; true].
Lemma all_checked165 : forallb (fun vl => forallb (fun maj => checked165 maj (fst vl) (snd vl)) [true; false]) (list_prod SM_neutrinos SM_leptons) = true.
Proof. vm_compute. reflexivity. Qed.

(* ---------- any sterile neutrino ---------- *)
Lemma neutral_facts maj id M v l : heavy id M v l -> checked165 maj v l = true /\
  forall i, reactions_of (nc_template (NN maj id M) v l i) = map (map (relabel (swap id M))) (reactions_of (nc_template (N0 maj) v l i)) /\
    (forall r, In r (reactions_of (nc_template (N0 maj) v l i)) -> drawn (map sp (company (N0 maj))) r /\ length r = 4%nat) /\ (forall r, In r (reactions_of (nc_template (N0 maj) v l i)) -> in_order r = true).
Proof.
  intros (Hv & Hl & Hid & HM). pose proof all_checked165 as C. rewrite forallb_forall in C. specialize (C (v, l) (in_prod _ _ _ _ Hv Hl)). cbn [fst snd] in C. rewrite forallb_forall in C.
  specialize (C maj ltac:(destruct maj; cbn; tauto)). split; [exact C|]. intros i. unfold checked165 in C. apply andb_prop in C. destruct C as [_ C]. rewrite forallb_forall in C. specialize (C i ltac:(destruct i; cbn; tauto)).
  apply andb_prop in C. destruct C as [C C3]. apply andb_prop in C. destruct C as [C1 C2]. apply Z.eqb_eq in C3. split; [|split].
  - apply reactions_swap; [exact C2| |exact Hid|rewrite C3; exact HM].
    assert (Ev : swap id M (sp v) = sp v) by now apply SM_unswapped, neutrinos_in. assert (El : swap id M (sp l) = sp l) by now apply SM_unswapped, leptons_in.
    destruct i; (split; [reflexivity|]); unfold nc_template, species_of, sterile_NC, tmpl22; cbn [fst snd tparts map]; now rewrite swap_N0, Ev, El.
  - intros r Hr. rewrite forallb_forall in C1. specialize (C1 r Hr). apply andb_prop in C1. destruct C1 as [C1 _]. apply andb_prop in C1. destruct C1 as [C1 C4]. apply Nat.eqb_eq in C4. split; [now apply known_drawn|exact C4].
  - intros r Hr. rewrite forallb_forall in C1. specialize (C1 r Hr). now apply andb_prop in C1.
Qed.
Lemma neutral_hyps maj id M v l theta i : heavy id M v l -> interaction_ok (nc_template (NN maj id M) v l i) (sterile_NC_Ms theta (g_L_of l v)).
Proof.
  intros (Hv & Hl & Hid & HM). split; [destruct i; split; reflexivity|]. split; [|split; [now destruct i|]].
  - apply (told_incl (NN maj id M :: SM_neutrinos ++ SM_leptons)).
    + intros x Hx. assert (HX : x = NN maj id M \/ x = v \/ x = l) by (destruct i; cbn in Hx; intuition auto).
      destruct HX as [E|[E|E]]; rewrite E; [now left|right; apply in_or_app; now left|right; apply in_or_app; now right].
    + apply nodup_told.
      * cbn. constructor; [|repeat (constructor; [cbn; intuition discriminate|]); constructor]. replace (sid (sp (NN maj id M))) with id by (now destruct maj). cbn. intuition lia.
      * destruct maj; cbn; repeat (constructor; [cbn; intuition discriminate|]); constructor.
  - repeat (constructor; [eexists _, _, _; split; [reflexivity|apply perm4b; reflexivity]|]). constructor.
Qed.
Lemma neutral_exists maj id M v l theta : heavy id M v l -> exists out, neutral_of (NN maj id M) v l theta out.
Proof.
  intros HS. destruct (exists_integrals _ _ (neutral_hyps maj id M v l theta false HS)) as (out0 & E0). destruct (exists_integrals _ _ (neutral_hyps maj id M v l theta true HS)) as (out1 & E1).
  eexists. exists out0, out1. split; [exact E0|]. split; [exact E1|reflexivity].
Qed.
Lemma nc_kept_same maj id M l i x r : map ispecie x = map (swap id M) (map ispecie r) -> map iside x = map iside r -> nc_kept (NN maj id M) l i x = nc_kept (N0 maj) l i r.
Proof.
  intros A B. unfold nc_kept, nc_keep. replace (lname (NN maj id M)) with (lname (N0 maj)) by (now destruct maj). rewrite (first_name_swap id M x r A). 
  replace (count_name (lname l) (-1) x) with (count_name (lname l) (-1) r); [reflexivity|]. unfold count_name. revert r A B. induction x as [|it x IH]; intros [|ir r] A B; try discriminate; [reflexivity|]. cbn [map] in A, B. injection A as A1 A. injection B as B1 B. specialize (IH r A B). cbn [filter].
  rewrite A1, B1, (proj1 (swap_kind id M _)). destruct (_ && _)%bool; cbn [length]; congruence.
Qed.
Lemma neutral_stemming maj id M v l theta out o : heavy id M v l -> neutral_of (NN maj id M) v l theta out -> In o out ->
  exists i r, In (i, r, group (nc_template (N0 maj) v l i) r) (nc_pictures maj v l) /\ drawn (map sp (company (N0 maj))) r /\ length r = 4%nat /\ map ispecie (ireaction o) = map (swap id M) (map ispecie r) /\ map iside (ireaction o) = map iside r.
Proof.
  intros HS (out0 & out1 & E0 & E1 & ->) Ho. destruct (neutral_facts maj id M v l HS) as (_ & HF).
  assert (HX : exists i outi, cross_generating (species_of (nc_template (NN maj id M) v l i)) (tflags (nc_template (NN maj id M) v l i)) (sterile_NC_Ms theta (g_L_of l v)) = Ok outi /\ In o outi /\ nc_kept (NN maj id M) l i (ireaction o) = true).
  { apply in_app_or in Ho. destruct Ho as [Ho|Ho]; apply filter_In in Ho; destruct Ho as [Ho HK]; [exists false, out0|exists true, out1]; auto. }
  destruct HX as (i & outi & E & Hi & HK). destruct (HF i) as (ER & HD & _).
  destruct (from_reaction maj id M _ _ _ (proj1 (proj2 (proj2 HS))) ER HD (neutral_hyps maj id M v l theta i HS) outi o E Hi) as (r & Hr & R1 & R2 & _).
  destruct (HD r Hr) as (D & L). exists i, r. split; [|repeat split; assumption]. apply in_flat_map. exists i. split; [destruct i; cbn; tauto|]. apply in_map_iff. exists r. split; [reflexivity|]. apply filter_In. split; [exact Hr|]. now rewrite <- (nc_kept_same maj id M l i (ireaction o) r R1 R2).
Qed.
Lemma neutral_yielding maj id M v l theta out u : heavy id M v l -> neutral_of (NN maj id M) v l theta out -> In u (nc_pictures maj v l) ->
  exists i r o, u = (i, r, group (nc_template (N0 maj) v l i) r) /\ In o out /\ drawn (map sp (company (N0 maj))) r /\ map ispecie (ireaction o) = map (swap id M) (map ispecie r) /\ map iside (ireaction o) = map iside r.
Proof.
  intros HS (out0 & out1 & E0 & E1 & ->) Hu. apply in_flat_map in Hu. destruct Hu as (i & _ & Hu). apply in_map_iff in Hu. destruct Hu as (r & <- & Hr). apply filter_In in Hr. destruct Hr as [Hr HK].
  destruct (neutral_facts maj id M v l HS) as (_ & HF). destruct (HF i) as (ER & HD & HO). exists i, r.
  assert (HX : exists outi, cross_generating (species_of (nc_template (NN maj id M) v l i)) (tflags (nc_template (NN maj id M) v l i)) (sterile_NC_Ms theta (g_L_of l v)) = Ok outi /\
    incl (filter (fun o => nc_kept (NN maj id M) l i (ireaction o)) outi) (filter (fun o => nc_kept (NN maj id M) l false (ireaction o)) out0 ++ filter (fun o => nc_kept (NN maj id M) l true (ireaction o)) out1)).
  { destruct i; [exists out1|exists out0]; (split; [assumption|]); intros x Hx; apply in_or_app; auto. }
  destruct HX as (outi & E & HI). destruct (to_integral maj id M _ _ _ (proj1 (proj2 (proj2 HS))) ER HD HO (neutral_hyps maj id M v l theta i HS) outi r E Hr) as (o & Ho & R1 & R2).
  exists o. split; [reflexivity|]. split; [|split; [now apply HD|auto]]. apply HI, filter_In. split; [exact Ho|]. now rewrite (nc_kept_same maj id M l i _ _ R1 R2).
Qed.
(* the event N l -> v l *)
Lemma scattering_event maj id M v l o t r q : heavy id M v l -> drawn (map sp (company (N0 maj))) r -> map ispecie (ireaction o) = map (swap id M) (map ispecie r) -> map iside (ireaction o) = map iside r -> Permutation q four ->
  facing (scattering_group maj v l) 0 q (group t r) = true <-> moved q 0 = 0%nat /\ forall j, (j < 4)%nat -> species_at o j = nth_error (map sp [NN maj id M; l; v; l]) (moved q j) /\ side_at o j = nth (moved q j) [-1; -1; 1; 1]%Z 0%Z.
Proof.
  intros (Hv & Hl & Hid & HM) D R1 R2 P. pose proof (places id M o t r R1 R2) as G.
  assert (Ev : swap id M (sp v) = sp v) by now apply SM_unswapped, neutrinos_in. assert (El : swap id M (sp l) = sp l) by now apply SM_unswapped, leptons_in.
  assert (EM : map sp [NN maj id M; l; v; l] = map (swap id M) (map sp [N0 maj; l; v; l])) by (cbn [map]; now rewrite swap_N0, Ev, El).
  assert (IG : incl (fst (fst (scattering_group maj v l))) (map sp (company (N0 maj)))).
  { intros x Hx. cbn [scattering_group fst map In] in Hx. destruct Hx as [<-|[<-|[<-|[<-|[]]]]]; [now left|right; apply in_map; now apply leptons_in|right; apply in_map; now apply neutrinos_in|right; apply in_map; now apply leptons_in]. }
  unfold facing. rewrite andb_true_iff, forallb_forall, Nat.eqb_eq. split.
  - intros (Q & H). split; [exact Q|]. intros j Hj. specialize (H j (proj2 (in_four j) Hj)). apply andb_prop in H. destruct H as [A B]. apply opt_same_eq in A. apply Z.eqb_eq in B. rewrite (proj1 (G j)), (proj2 (G j)), A, B, EM. unfold gspecie, gside, scattering_group. cbn [fst snd]. split; [symmetry; apply nth_error_map|]. cbn [nth]. lia.
  - intros (Q & H). split; [exact Q|]. intros j Hj. apply in_four in Hj. destruct (H j Hj) as (A & B). rewrite (proj1 (G j)), EM, nth_error_map in A. rewrite (proj2 (G j)) in B. apply andb_true_intro. split.
    + rewrite <- (opt_same_relabel (swap id M) (map sp (company (N0 maj)))); [|now apply swap_species|intros z Hz; eapply gspecie_in; [apply group_incl; exact D|exact Hz]|intros z Hz; eapply gspecie_in; [exact IG|exact Hz]].
      rewrite A. unfold gspecie, scattering_group. cbn [fst snd]. destruct (nth_error _ (moved q j)) as [s|]; [|reflexivity]. cbn. unfold specie_eqb. now rewrite Nat.eqb_refl, String.eqb_refl, Z.eqb_refl, Bool.eqb_reflx.
    + apply Z.eqb_eq. rewrite B. unfold gside, scattering_group. cbn [fst snd nth]. lia.
Qed.

(* ---------- C165 ---------- *)
Definition off_lepton (n v l : lib) : integral -> Prop := event_of (map sp [n; l; v; l]) [-1; -1; 1; 1]%Z.
Lemma mine_checked maj v l : checked165 maj v l = true ->
  (exists u q, In u (nc_pictures maj v l) /\ Permutation q four /\ facing (scattering_group maj v l) 0 q (snd u) = true) /\
  forall u q, In u (nc_pictures maj v l) -> Permutation q four -> facing (scattering_group maj v l) 0 q (snd u) = true ->
    weight (charged_names (company (N0 maj))) (snd (fst u)) = (if maj then 1 else 2)%nat /\
    forall k, (0 < k < 4)%nat -> if electronic l then exists u' q', In u' (nc_pictures maj v l) /\ Permutation q' four /\ facing (snd u) k q' (snd u') = true
      else forall u' q', In u' (nc_pictures maj v l) -> Permutation q' four -> facing (snd u) k q' (snd u') = false.
Proof.
  intros C. unfold checked165 in C. cbn zeta in C. apply andb_prop in C. destruct C as [C _]. apply andb_prop in C. destruct C as [C1 C2]. rewrite forallb_forall in C2. split.
  - apply Bool.negb_true_iff, Nat.eqb_neq in C1. destruct (filter (fun u => existsb (fun q => facing (scattering_group maj v l) 0 q (snd u)) arrangements4) (nc_pictures maj v l)) as [|u us] eqn:F; [now contradiction C1|]. assert (I : In u (u :: us)) by now left. rewrite <- F in I. apply filter_In in I. destruct I as [I X]. apply existsb_exists in X. destruct X as (q & Hq & X). exists u, q. split; [exact I|]. split; [now apply arrangements4_iff|exact X].
  - intros u q Hu P FA. assert (I : In u (filter (fun u => existsb (fun q => facing (scattering_group maj v l) 0 q (snd u)) arrangements4) (nc_pictures maj v l))).
    { apply filter_In. split; [exact Hu|]. apply existsb_exists. exists q. split; [now apply arrangements4_iff|exact FA]. }
    specialize (C2 u I). apply andb_prop in C2. destruct C2 as [W C2]. apply Nat.eqb_eq in W. split; [exact W|]. intros k Hk. rewrite forallb_forall in C2. specialize (C2 k ltac:(destruct k as [|[|[|[|k]]]]; cbn; lia || tauto)). apply Bool.eqb_prop in C2. destruct (electronic l).
    + apply existsb_exists in C2. destruct C2 as (u' & Hu' & C2). apply existsb_exists in C2. destruct C2 as (q' & Hq' & C2). exists u', q'. split; [exact Hu'|]. split; [now apply arrangements4_iff|exact C2].
    + intros u' q' Hu' P'. apply Bool.not_true_iff_false. intros X. apply Bool.not_true_iff_false in C2. apply C2, existsb_exists. exists u'. split; [exact Hu'|]. apply existsb_exists. exists q'. split; [now apply arrangements4_iff|exact X].
Qed.
(* the sterile neutrino loses by the scattering, *)
Theorem C165_lost : forall maj id M v l theta out ks, let n := NN maj id M in heavy id M v l -> neutral_of n v l theta out -> sees ks (company n) ->
  (exists o, In o out /\ off_lepton n v l o) /\ forall o, In o out -> off_lepton n v l o -> number_weight ks (ireaction o) = Ok (if maj then 1 else 2).
Proof.
  intros maj id M v l theta out ks n HS HC HK. assert (Hid : (27 <= id)%nat) by apply HS. destruct (neutral_facts maj id M v l HS) as (CH & _). destruct (mine_checked maj v l CH) as ((u & q & Hu & P & FA) & HW). split.
  - destruct (neutral_yielding maj id M v l theta out u HS HC Hu) as (i & r & o & -> & Ho & D & R1 & R2). exists o. split; [exact Ho|]. exists q. split; [exact P|]. cbn [snd] in FA. now apply (scattering_event maj id M v l o _ r q HS D R1 R2 P) in FA.
  - intros o Ho (q' & P' & HE). destruct (neutral_stemming maj id M v l theta out o HS HC Ho) as (i & r & Hr & D & L & R1 & R2).
    apply (scattering_event maj id M v l o (nc_template (N0 maj) v l i) r q' HS D R1 R2 P') in HE. destruct (HW _ q' Hr P' HE) as (W & _). cbn [fst snd] in W. rewrite (weight_of maj id M ks r o Hid HK D L R1 R2), W. now destruct maj.
Qed.
Print Assumptions C165_lost.
(* but no equation of another participant knows of the scattering off a muon or a
   tau *)
Theorem C165_refuted : forall maj id M v l theta out o o' k q, let n := NN maj id M in heavy id M v l -> l <> electron -> neutral_of n v l theta out ->
  In o out -> off_lepton n v l o -> In o' out -> (0 < k < 4)%nat -> ~ turns q o k o'.
Proof.
  intros maj id M v l theta out o o' k q n HS NE HC Ho (q0 & P0 & HE) Ho' Hk HT. assert (Hid : (27 <= id)%nat) by apply HS. destruct (neutral_facts maj id M v l HS) as (CH & _). destruct (mine_checked maj v l CH) as (_ & HW).
  assert (EL : electronic l = false) by (destruct HS as (_ & Hl & _); cbn [SM_leptons In] in Hl; destruct Hl as [<-|[<-|[<-|[]]]]; [exfalso; now apply NE|reflexivity|reflexivity]).
  destruct (neutral_stemming maj id M v l theta out o HS HC Ho) as (i & r & Hr & D & L & R1 & R2). destruct (neutral_stemming maj id M v l theta out o' HS HC Ho') as (i' & r' & Hr' & D' & L' & R1' & R2').
  apply (scattering_event maj id M v l o (nc_template (N0 maj) v l i) r q0 HS D R1 R2 P0) in HE. destruct (HW _ q0 Hr P0 HE) as (_ & HX). specialize (HX k Hk). rewrite EL in HX. assert (P := proj1 HT). specialize (HX _ q Hr' P). cbn [snd] in HX.
  apply (turns_facing maj id M o o' (nc_template (N0 maj) v l i) (nc_template (N0 maj) v l i') r r' q k Hid) in HT; auto using group_incl. congruence.
Qed.
Print Assumptions C165_refuted.
(* of the scattering off an electron all equations know *)
Theorem C165_electrons : forall maj id M v theta out o k, let n := NN maj id M in heavy id M v electron -> neutral_of n v electron theta out ->
  In o out -> off_lepton n v electron o -> (k < 4)%nat -> exists o' q, In o' out /\ turns q o k o'.
Proof.
  intros maj id M v theta out o k n HS HC Ho (q0 & P0 & HE) Hk. assert (Hid : (27 <= id)%nat) by apply HS. destruct (neutral_facts maj id M v electron HS) as (CH & _). destruct (mine_checked maj v electron CH) as (_ & HW).
  destruct (neutral_stemming maj id M v electron theta out o HS HC Ho) as (i & r & Hr & D & L & R1 & R2).
  destruct k as [|k].
  - exists o, four. split; [exact Ho|]. assert (HE0 := HE). destruct HE as (Q & H). split; [reflexivity|]. split; [reflexivity|]. destruct (H 0%nat ltac:(lia)) as (_ & S0). rewrite Q in S0. cbn in S0. intros j Hj. rewrite S0. destruct j as [|[|[|[|j]]]]; try lia; cbn [moved four nth]; split; lia || reflexivity.
  - apply (scattering_event maj id M v electron o (nc_template (N0 maj) v electron i) r q0 HS D R1 R2 P0) in HE. destruct (HW _ q0 Hr P0 HE) as (_ & HX). destruct (HX (S k) ltac:(lia)) as (u' & q & Hu' & P & FA). cbn [snd] in FA.
    destruct (neutral_yielding maj id M v electron theta out u' HS HC Hu') as (i' & r' & o' & -> & Ho' & D' & R1' & R2'). exists o', q. split; [exact Ho'|]. cbn [snd] in FA.
    apply (turns_facing maj id M o o' (nc_template (N0 maj) v electron i) (nc_template (N0 maj) v electron i') r r' q (S k) Hid); auto using group_incl.
Qed.
Print Assumptions C165_electrons.
Example C165_example : heavy 40 (10 ^ 9) neutrino_e muon /\ (exists out, neutral_of (dirac_sterile_neutrino 40 (10 ^ 9)) neutrino_e muon (1 / 100) out) /\ sees ex_ks (company (dirac_sterile_neutrino 40 (10 ^ 9)%Z)) /\
  length (nc_pictures false neutrino_e muon) = 8%nat.
Proof.
  assert (HD : heavy 40 (10 ^ 9) neutrino_e muon) by (repeat split; cbn; try tauto; lia). split; [exact HD|]. split; [exact (neutral_exists false 40 (10 ^ 9) neutrino_e muon (1 / 100) HD)|]. split; [apply ex_sees; now left|vm_compute; reflexivity].
Qed.
