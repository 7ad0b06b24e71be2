(* C152: energy in the scattering of sterile neutrinos. *)
From Coq Require Import Reals Lra Permutation ZArith.
From Verif Require Import Base FunctionalModel FunctionalProofs CrossModel CrossProofs CrossProofs2 CrossProofs3 CrossProofs4 ParamsModel ParamsProofs LibModel LibProofs Lib2Proofs Lib3Proofs MatrixModel Matrix2Proofs MatrixProps RelabelProofs LedgerProofs LedgerProps ShapeProofs TermProofs WeakTableProofs WeakTableProps ReciprocityProofs ReciprocityProps ImbalanceProofs.
Open Scope R_scope.
Local Notation length := List.length.

(* the integrals of the two interactions that NuMSM.py:154-168 adds for two
   neutrinos: of the second one those whose particle no integral of the first has *)
Definition pair_integrals (out0 out1 : list integral) : list integral :=
  out0 ++ filter (fun o => negb (existsb (String.eqb (first_name (ireaction o))) (map (fun i => first_name (ireaction i)) out0))) out1.
Definition pair_of (n a b : lib) (theta : R) (out : list integral) : Prop :=
  exists out0 out1, cross_generating (species_of (fst (sterile_active_scattering n a b))) (tflags (fst (sterile_active_scattering n a b))) (fst (sterile_scattering_Ms theta a b)) = Ok out0 /\
    cross_generating (species_of (snd (sterile_active_scattering n a b))) (tflags (snd (sterile_active_scattering n a b))) (snd (sterile_scattering_Ms theta a b)) = Ok out1 /\ out = pair_integrals out0 out1.
(* N b -> a b with a at place c, b at place d *)
Definition scatters (n a b : lib) (c d : nat) (o : integral) : Prop :=
  length (ireaction o) = 4%nat /\ (c = 2 /\ d = 3 \/ c = 3 /\ d = 2)%nat /\ species_at o 0 = Some (sp n) /\ species_at o 1 = Some (sp b) /\ species_at o c = Some (sp a) /\ species_at o d = Some (sp b) /\
  side_at o 0 = (-1)%Z /\ side_at o 1 = (-1)%Z /\ side_at o 2 = 1%Z /\ side_at o 3 = 1%Z.
(* what the equation of each participant takes the event to be *)
Definition share (maj : bool) (c k : nat) : R * R :=
  match k with 0%nat => if maj then (1, 1) else (2, 2) | 1%nat => (2, 0) | _ => if (k =? c)%nat then (2, 2) else (0, 2) end.

(* ---------- the computation, for one sterile neutrino ---------- *)
Definition forms0 : list form := [([0; 1; 2; 3], (true, false))]%nat.
Definition forms1 : list form := [([2; 3; 0; 1], (true, false))]%nat.
Definition template (maj : bool) (a b : lib) (i : bool) : tmpl := (if i then snd else fst) (sterile_active_scattering (N0 maj) a b).
Definition kept (maj : bool) (a b : lib) (i : bool) : list (list item) :=
  if i then filter (fun r => negb (existsb (String.eqb (first_name r)) (map first_name (reactions_of (template maj a b false))))) (reactions_of (template maj a b true)) else reactions_of (template maj a b false).
Definition direct (c d : nat) : term := mkTerm 0 false 1 0 1 c d.
Definition crossed_ (c d : nat) : term := mkTerm 0 false 1 0 d 1 c.
Definition expected (c d k : nat) : list term :=
  match k with 0%nat => [direct c d; crossed_ c d] | 1%nat => [direct c d] | _ => if (k =? c)%nat then [direct c d; crossed_ c d] else [crossed_ c d] end.
Definition expected_weight (maj : bool) (k : nat) : nat := if maj then match k with 0%nat => 1 | _ => 2 end else 2.
Definition picture := (bool * list item * grp)%type.
Definition pictures_of (maj : bool) (a b : lib) : list picture := flat_map (fun i => map (fun r => (i, r, group (template maj a b i) r)) (kept maj a b i)) [false; true].
Definition forms_of (i : bool) : list form := if i then forms1 else forms0.
Definition event_group (maj : bool) (a b : lib) (c : nat) : grp := (if (c =? 2)%nat then map sp [N0 maj; b; a; b] else map sp [N0 maj; b; b; a], [-1; -1; 1; 1]%Z, []).
Definition place_b (c : nat) : nat := (5 - c)%nat.
Definition verdict (maj : bool) (c k : nat) (g : grp) (q : list nat) (u : picture) : bool :=
  let '(i, r, g') := u in
  if facing g k q g' then
    (weight (charged_names (company (N0 maj))) r =? expected_weight maj k)%nat && good (forms_of i) g' && same_terms (map canon (map (move q) (gterms (forms_of i) g'))) (map canon (expected c (place_b c) k)) && light (gterms (forms_of i) g') && forallb low (gterms (forms_of i) g')
  else true.
Definition in_order (r : list item) : bool :=
  forallb (fun ab => (fst ab =? snd ab)%Z) (combine (map iside r) (repeat (-1)%Z (length (lefts r)) ++ repeat 1%Z (4 - length (lefts r)))).
Definition ways : list (nat * nat * list nat) := list_prod (list_prod [2; 3]%nat four) arrangements4.
Definition checked152 (maj : bool) (a b : lib) : bool :=
  let us := pictures_of maj a b in
  forallb (fun w => let '(c, k, q) := w in let g := event_group maj a b c in forallb (verdict maj c k g q) us) ways &&
  existsb (fun c => existsb (fun u => negb (fst (fst u)) && facing (event_group maj a b c) 0 four (snd u)) us && forallb (fun k => existsb (fun u => existsb (fun q => facing (event_group maj a b c) k q (snd u)) arrangements4) us) four) [2; 3]%nat &&
  forallb (fun i => forallb (fun r => known maj r && (length r =? 4)%nat && in_order r) (reactions_of (template maj a b i)) && has_N0 (template maj a b i) && (masses (others_of (template maj a b i)) =? 0)%Z)%bool [false; true].
Definition flavours : list (lib * lib) := filter (fun ab => negb (sid (sp (fst ab)) =? sid (sp (snd ab)))%nat) (list_prod SM_neutrinos SM_neutrinos).
Lemma all_checked : forallb (fun ab => forallb (fun maj => checked152 maj (fst ab) (snd ab)) [true; false]) flavours = true.
Proof. vm_compute. reflexivity. Qed.

(* ---------- any sterile neutrino ---------- *)
Lemma swap_species maj id M : (27 <= id)%nat -> keeps_species (swap id M) (map sp (company (N0 maj))).
Proof.
  intros Hid. assert (HS : forall s, In s (map sp (company (N0 maj))) -> s = sp (N0 maj) \/ (sid s < 27)%nat).
  { intros s Hs. cbn [company map In] in Hs. destruct Hs as [<-|Hs]; [now left|]. right. apply in_map_iff in Hs. destruct Hs as (p & <- & Hp).
    assert (E : forallb (fun p => sid (sp p) <? 27)%nat (SM_neutrinos ++ SM_leptons ++ SM_mesons) = true) by reflexivity. rewrite forallb_forall in E. now apply Nat.ltb_lt, E. }
  assert (H30 : sid (sp (N0 maj)) = 30%nat) by (now destruct maj).
  assert (HU : forall s, (sid s < 27)%nat -> swap id M s = s) by (intros s L; unfold swap; destruct (Nat.eqb_spec (sid s) 30); [lia|reflexivity]).
  assert (HN : sid (sp (NN maj id M)) = id) by (now destruct maj).
  assert (HR : forall s, specie_eqb s s = true) by (intros s; unfold specie_eqb; now rewrite Nat.eqb_refl, String.eqb_refl, Z.eqb_refl, Bool.eqb_reflx).
  assert (HF : forall s t, sid s <> sid t -> specie_eqb s t = false) by (intros s t N; unfold specie_eqb; now rewrite (proj2 (Nat.eqb_neq _ _) N)).
  intros s s' Hs Hs'. destruct (HS s Hs) as [->|L], (HS s' Hs') as [->|L']; rewrite ?(swap_N0 maj id M), ?HU by assumption; rewrite ?HR; try reflexivity; rewrite !HF by lia; reflexivity.
Qed.
Lemma flavours_in a b : In a SM_neutrinos -> In b SM_neutrinos -> a <> b -> In (a, b) flavours.
Proof.
  intros Ha Hb N. apply filter_In. split; [now apply in_prod|]. cbn [fst snd]. apply Bool.negb_true_iff, Nat.eqb_neq. intros E. apply N. apply id_eq; auto using in_ln.
Qed.
Lemma number_weight_species ks r r' : map ispecie r = map ispecie r' -> map iside r = map iside r' -> number_weight ks r = number_weight ks r'.
Proof.
  intros A B. assert (K : kitems ks r = kitems ks r').
  { unfold kitems. revert r' A B. induction r as [|x r IH]; intros [|y r'] A B; try discriminate; [reflexivity|]. cbn [map] in *. injection A as A1 A. injection B as B1 B. rewrite A1, B1. f_equal. now apply IH. }
  unfold number_weight. rewrite K. destruct r as [|x r], r' as [|y r']; try discriminate; [reflexivity|]. injection A as A1 A. rewrite A1.
  assert (L : length (x :: r) = length (y :: r')) by (cbn; f_equal; rewrite <- (map_length ispecie r), A; apply map_length). now rewrite L.
Qed.
Lemma first_name_species r r' : map ispecie r = map ispecie r' -> first_name r = first_name r'.
Proof. destruct r, r'; try discriminate; [reflexivity|]. intros E. injection E as E _. cbn. now rewrite E. Qed.

(* the two interactions of a pair *)
Definition sector (maj : bool) (id : nat) (M : Z) (a b : lib) (i : bool) : tmpl := (if i then snd else fst) (sterile_active_scattering (NN maj id M) a b).
Definition sector_Ms (theta : R) (a b : lib) (i : bool) : list mel := (if i then snd else fst) (sterile_scattering_Ms theta a b).
Definition settled (maj : bool) (id : nat) (M : Z) (a b : lib) : Prop := In a SM_neutrinos /\ In b SM_neutrinos /\ a <> b /\ (27 <= id)%nat /\ (0 < M)%Z.
Lemma sector_facts maj id M a b : settled maj id M a b -> checked152 maj a b = true /\
  forall i, reactions_of (sector maj id M a b i) = map (map (relabel (swap id M))) (reactions_of (template maj a b i)) /\
    (forall r, In r (reactions_of (template maj a b i)) -> drawn (map sp (company (N0 maj))) r /\ length r = 4%nat) /\ (forall r, In r (reactions_of (template maj a b i)) -> in_order r = true).
Proof.
  intros (Ha & Hb & N & Hid & HM). pose proof all_checked as C. rewrite forallb_forall in C. specialize (C (a, b) (flavours_in a b Ha Hb N)). rewrite forallb_forall in C. cbn [fst snd] in C.
  specialize (C maj ltac:(destruct maj; cbn; tauto)). split; [exact C|]. intros i. unfold checked152 in C. apply andb_prop in C. destruct C as [_ C]. rewrite forallb_forall in C. specialize (C i ltac:(destruct i; cbn; tauto)).
  apply andb_prop in C. destruct C as [C C3]. apply andb_prop in C. destruct C as [C1 C2]. apply Z.eqb_eq in C3. split; [|split].
  - apply reactions_swap; [exact C2| |exact Hid|rewrite C3; exact HM].
    assert (Ea : swap id M (sp a) = sp a) by now apply SM_unswapped, neutrinos_in. assert (Eb : swap id M (sp b) = sp b) by now apply SM_unswapped, neutrinos_in.
    destruct i; (split; [reflexivity|]); unfold sector, template, species_of, sterile_active_scattering, tmpl22; cbn [fst snd tparts map]; now rewrite swap_N0, Ea, Eb.
  - intros r Hr. rewrite forallb_forall in C1. specialize (C1 r Hr). apply andb_prop in C1. destruct C1 as [C1 _]. apply andb_prop in C1. destruct C1 as [C1 C4]. apply Nat.eqb_eq in C4. split; [now apply known_drawn|exact C4].
  - intros r Hr. rewrite forallb_forall in C1. specialize (C1 r Hr). now apply andb_prop in C1.
Qed.
Lemma sector_ok maj id M a b theta i : settled maj id M a b -> interaction_ok (sector maj id M a b i) (sector_Ms theta a b i).
Proof.
  intros (Ha & Hb & N & Hid & HM). split; [destruct i; split; reflexivity|]. split; [|split; [now destruct i|]].
  - apply (told_incl (NN maj id M :: SM_neutrinos)).
    + intros x Hx. assert (HX : x = NN maj id M \/ x = a \/ x = b) by (destruct i; cbn in Hx; intuition auto). destruct HX as [E|[E|E]]; rewrite E; [now left|right; assumption..].
    + apply nodup_told.
      * cbn. constructor; [|repeat (constructor; [cbn; intuition discriminate|]); constructor]. replace (sid (sp (NN maj id M))) with id by (now destruct maj). cbn. intuition lia.
      * destruct maj; cbn; repeat (constructor; [cbn; intuition discriminate|]); constructor.
  - destruct i; (constructor; [eexists _, _, _; split; [reflexivity|apply perm4b; reflexivity]|constructor]).
Qed.
(* an integral of the interaction is the image of a reaction for the one sterile
   neutrino of the computation *)
Lemma described maj id M a b theta i out o : settled maj id M a b -> cross_generating (species_of (sector maj id M a b i)) (tflags (sector maj id M a b i)) (sector_Ms theta a b i) = Ok out -> In o out ->
  exists r, In r (reactions_of (template maj a b i)) /\ map ispecie (ireaction o) = map (swap id M) (map ispecie r) /\ map iside (ireaction o) = map iside r /\
    forall p m, total (Ms o) p m = shapes_amplitude (snd (group (template maj a b i) r)) (sector_Ms theta a b i) p m.
Proof.
  intros HS E Ho. destruct (sector_ok maj id M a b theta i HS) as (I1 & I2 & I3 & I4). destruct (integrals_amplitude _ _ I1 I2 I3 I4) as (out' & E' & _ & _ & _ & HA). rewrite E in E'. injection E' as <-.
  destruct (HA o Ho) as (ss & Hg & _ & HT). destruct (sector_facts maj id M a b HS) as (_ & HF). destruct (HF i) as (ER & HD & _). apply in_map_iff in Hg. destruct Hg as (r' & Eg & Hr'). assert (Hr0 := Hr'). rewrite ER in Hr'. apply in_map_iff in Hr'. destruct Hr' as (r & <- & Hr).
  assert (HI : keeps_identity (swap id M) (map sp (company (N0 maj)))) by (apply swap_identity, company_fresh; apply HS).
  rewrite (group_relabel (swap id M) (map sp (company (N0 maj))) _ _ r ER HI) in Eg; [|intros x Hx; destruct (HD x Hx) as (D & L); split; [exact D|intros ->; discriminate L]|exact Hr].
  exists r. split; [exact Hr|]. unfold group_of in Eg. injection Eg as E1 E2 E3. split; [now rewrite <- E1|]. split; [now rewrite <- E2|]. intros p m. rewrite HT. f_equal. now rewrite <- E3.
Qed.
Lemma realised maj id M a b theta i out r : settled maj id M a b -> cross_generating (species_of (sector maj id M a b i)) (tflags (sector maj id M a b i)) (sector_Ms theta a b i) = Ok out -> In r (reactions_of (template maj a b i)) ->
  exists o, In o out /\ map ispecie (ireaction o) = map (swap id M) (map ispecie r) /\ length (lefts (ireaction o)) = length (lefts r).
Proof.
  intros HS E Hr. destruct (sector_ok maj id M a b theta i HS) as (I1 & I2 & I3 & I4). destruct (integrals_amplitude _ _ I1 I2 I3 I4) as (out' & E' & _ & _ & HR & _). rewrite E in E'. injection E' as <-.
  destruct (sector_facts maj id M a b HS) as (_ & HF). destruct (HF i) as (ER & _).
  destruct (HR (map (relabel (swap id M)) r)) as (o & Ho & (_ & PL & _) & Es); [rewrite ER; now apply in_map|]. exists o. split; [exact Ho|]. split; [rewrite <- Es, !map_map; reflexivity|].
  apply Permutation_length in PL. rewrite !map_length in PL. unfold of_reaction in PL. cbn [ireaction] in PL. rewrite <- PL. unfold lefts. rewrite (filter_map_comm (relabel (swap id M)) _ (fun it => (iside it =? -1)%Z)) by reflexivity. now rewrite map_length.
Qed.
Lemma first_name_swap id M x r : map ispecie x = map (swap id M) (map ispecie r) -> first_name x = first_name r.
Proof. destruct x, r; try discriminate; [reflexivity|]. cbn [map]. intros E. injection E as E _. cbn [first_name]. rewrite E. apply swap_kind. Qed.
Lemma pair_described maj id M a b theta out o : settled maj id M a b -> pair_of (NN maj id M) a b theta out -> In o out ->
  exists i r, In r (kept maj a b i) /\ map ispecie (ireaction o) = map (swap id M) (map ispecie r) /\ map iside (ireaction o) = map iside r /\
    forall p m, total (Ms o) p m = shapes_amplitude (snd (group (template maj a b i) r)) (sector_Ms theta a b i) p m.
Proof.
  intros HS (out0 & out1 & E0 & E1 & ->) Ho. apply in_app_or in Ho. destruct Ho as [Ho|Ho].
  - destruct (described maj id M a b theta false out0 o HS E0 Ho) as (r & Hr & F). exists false, r. split; [exact Hr|exact F].
  - apply filter_In in Ho. destruct Ho as [Ho Hk]. destruct (described maj id M a b theta true out1 o HS E1 Ho) as (r & Hr & F1 & F). exists true, r. split; [|split; [exact F1|exact F]].
    apply filter_In. split; [exact Hr|]. apply Bool.negb_true_iff in Hk. apply Bool.negb_true_iff, Bool.not_true_iff_false. intros X. apply Bool.not_true_iff_false in Hk. apply Hk. clear Hk.
    apply existsb_exists in X. destruct X as (n & Hn & En). apply String.eqb_eq in En. apply in_map_iff in Hn. destruct Hn as (r0 & <- & Hr0).
    destruct (realised maj id M a b theta false out0 r0 HS E0 Hr0) as (o0 & Ho0 & Es & _). apply existsb_exists. exists (first_name (ireaction o0)). split; [apply in_map_iff; now exists o0|].
    apply String.eqb_eq. rewrite (first_name_swap _ _ _ _ Es), (first_name_swap _ _ _ _ F1). exact En.
Qed.
Lemma pair_exists maj id M a b theta : settled maj id M a b -> exists out, pair_of (NN maj id M) a b theta out.
Proof.
  intros HS. destruct (sector_ok maj id M a b theta false HS) as (I1 & I2 & I3 & I4). destruct (integrals_amplitude _ _ I1 I2 I3 I4) as (out0 & E0 & _).
  destruct (sector_ok maj id M a b theta true HS) as (J1 & J2 & J3 & J4). destruct (integrals_amplitude _ _ J1 J2 J3 J4) as (out1 & E1 & _). exists (pair_integrals out0 out1), out0, out1. auto.
Qed.
Lemma pair_realised maj id M a b theta out i r : settled maj id M a b -> pair_of (NN maj id M) a b theta out -> In r (kept maj a b i) ->
  exists o, In o out /\ map ispecie (ireaction o) = map (swap id M) (map ispecie r) /\ length (lefts (ireaction o)) = length (lefts r).
Proof.
  intros HS (out0 & out1 & E0 & E1 & ->) Hr. destruct i.
  - apply filter_In in Hr. destruct Hr as [Hr Hk]. destruct (realised maj id M a b theta true out1 r HS E1 Hr) as (o & Ho & F1 & F2). exists o. split; [|split; [exact F1|exact F2]]. apply in_or_app. right. apply filter_In. split; [exact Ho|].
    apply Bool.negb_true_iff in Hk. apply Bool.negb_true_iff, Bool.not_true_iff_false. intros X. apply Bool.not_true_iff_false in Hk. apply Hk. clear Hk.
    apply existsb_exists in X. destruct X as (n & Hn & En). apply String.eqb_eq in En. apply in_map_iff in Hn. destruct Hn as (o0 & <- & Ho0).
    destruct (described maj id M a b theta false out0 o0 HS E0 Ho0) as (r0 & Hr0 & F & _). apply existsb_exists. exists (first_name r0). split; [apply in_map_iff; exists r0; auto|].
    apply String.eqb_eq. rewrite <- (first_name_swap _ _ _ _ F1), <- (first_name_swap _ _ _ _ F). exact En.
  - destruct (realised maj id M a b theta false out0 r HS E0 Hr) as (o & Ho & F). exists o. split; [apply in_or_app; now left|exact F].
Qed.
Lemma kept_in maj a b i r : In r (kept maj a b i) -> In r (reactions_of (template maj a b i)).
Proof. destruct i; [intros H; apply filter_In in H; tauto|auto]. Qed.

Definition coupling (theta : R) : R := 1 * (32 * G_Fermi ^ 2) * theta ^ 2.
Lemma sector_formed maj id M a b theta i : settled maj id M a b -> formed (fun _ => coupling theta) (fun _ => 0 * (32 * G_Fermi ^ 2) * theta ^ 2) 0 (forms_of i) (sector_Ms theta a b i).
Proof.
  intros (Ha & Hb & N & _). assert (E : (sid (sp a) =? sid (sp b))%nat = false) by (apply Nat.eqb_neq; intros E; apply N, id_eq; auto using in_ln).
  unfold sector_Ms, sterile_scattering_Ms. rewrite E. destruct i; cbn [fst snd forms_of forms0 forms1];
  (apply formed_cons; [discriminate|intros _; ring|apply formed_nil]).
Qed.
(* the event as the computation sees it *)
Lemma scatters_group maj id M a b c d o j : settled maj id M a b -> scatters (NN maj id M) a b c d o -> (j < 4)%nat ->
  d = place_b c /\ In c [2; 3]%nat /\ species_at o j = option_map (swap id M) (gspecie (event_group maj a b c) j) /\ side_at o j = gside (event_group maj a b c) j.
Proof.
  intros (Ha & Hb & _) (_ & HC & S0 & S1 & Sc & Sd & T0 & T1 & T2 & T3) Hj.
  assert (Ea : swap id M (sp a) = sp a) by now apply SM_unswapped, neutrinos_in. assert (Eb : swap id M (sp b) = sp b) by now apply SM_unswapped, neutrinos_in.
  destruct HC as [(-> & ->)|(-> & ->)]; (split; [reflexivity|]; split; [cbn; tauto|]); destruct j as [|[|[|[|j]]]]; try lia; unfold event_group, gspecie, gside; cbn [fst snd Nat.eqb map nth_error option_map nth];
  rewrite ?(swap_N0 maj id M), ?Ea, ?Eb; auto.
Qed.
Lemma turned_amplitude maj id M a b theta ks out o o' c d k q : settled maj id M a b -> pair_of (NN maj id M) a b theta out -> sees ks (company (NN maj id M)) ->
  scatters (NN maj id M) a b c d o -> In o' out -> turns q o k o' -> (k < 4)%nat ->
  length (ireaction o') = 4%nat /\ side_at o' 0 = (-1)%Z /\ number_weight ks (ireaction o') = Ok (INR (expected_weight maj k)) /\
  forall p, event_amplitude o' (fun j => p (moved q j)) = eval (fun _ => coupling theta) (fun _ => 0) p (fun _ => 0) (expected c d k).
Proof.
  intros HS HP HK HC Ho' (P & Q0 & HT) Hk. destruct (pair_described maj id M a b theta out o' HS HP Ho') as (i & r & Hr & R1 & R2 & R3).
  destruct (sector_facts maj id M a b HS) as (CH & HF). destruct (HF i) as (ER & HD & _). destruct (HD r (kept_in _ _ _ _ _ Hr)) as (D & L).
  pose proof (scatters_group maj id M a b c d o 0 HS HC ltac:(lia)) as (Ed & Ic & _).
  set (l := map sp (company (N0 maj))) in *. assert (KS : keeps_species (swap id M) l) by (apply swap_species, HS).
  assert (IG : incl (fst (fst (event_group maj a b c))) l).
  { intros x Hx. unfold event_group in Hx. cbn [fst] in Hx. destruct HS as (Ha & Hb & _). apply in_map_iff. destruct (c =? 2)%nat; cbn [map In] in Hx; destruct Hx as [<-|[<-|[<-|[<-|[]]]]];
      eexists; (split; [reflexivity|]); (now left) || (right; apply in_or_app; left; assumption). }
  assert (IR : incl (fst (fst (group (template maj a b i) r))) l) by (intros x Hx; unfold group in Hx; cbn [fst] in Hx; apply in_map_iff in Hx; destruct Hx as (it & <- & Hi); now apply D).
  assert (HM : forall j, (moved q j < 4)%nat).
  { intros j. unfold moved. destruct (Nat.lt_ge_cases j (length q)) as [X|X]; [|rewrite nth_overflow by exact X; lia]. apply in_four, (Permutation_in _ P), nth_In, X. }
  assert (GO : forall j, species_at o' j = option_map (swap id M) (gspecie (group (template maj a b i) r) j) /\ side_at o' j = gside (group (template maj a b i) r) j).
  { intros j. destruct (group_at o' [] j) as (-> & ->). unfold gspecie, gside, group_of, group. cbn [fst snd]. rewrite R1, R2. split; [apply nth_error_map|reflexivity]. }
  assert (FA : facing (event_group maj a b c) k q (group (template maj a b i) r) = true).
  { unfold facing. rewrite Q0, Nat.eqb_refl. cbn [andb]. apply forallb_forall. intros j Hj. apply in_four in Hj. destruct (HT j Hj) as (A & B). destruct (GO j) as (A1 & B1). rewrite A1 in A. rewrite B1 in B.
    destruct (scatters_group maj id M a b c d o (moved q j) HS HC (HM j)) as (_ & _ & A2 & B2). destruct (scatters_group maj id M a b c d o k HS HC Hk) as (_ & _ & _ & B3). rewrite A2 in A. rewrite B2, B3 in B.
    apply andb_true_intro. split; [|now apply Z.eqb_eq]. rewrite <- (opt_same_relabel (swap id M) l); eauto using gspecie_in. rewrite A.
    destruct (option_map (swap id M) (gspecie (event_group maj a b c) (moved q j))) as [s|]; [|reflexivity]. cbn. unfold specie_eqb. now rewrite Nat.eqb_refl, String.eqb_refl, Z.eqb_refl, Bool.eqb_reflx. }
  unfold checked152 in CH. apply andb_prop in CH. destruct CH as [CH _]. apply andb_prop in CH. destruct CH as [CH _]. rewrite forallb_forall in CH.
  assert (IW : In (c, k, q) ways) by (unfold ways; repeat apply in_prod; [exact Ic|now apply in_four|now apply arrangements4_iff]). specialize (CH (c, k, q) IW). cbn beta iota in CH. rewrite forallb_forall in CH.
  assert (IU : In (i, r, group (template maj a b i) r) (pictures_of maj a b)) by (apply in_flat_map; exists i; split; [destruct i; cbn; tauto|apply in_map_iff; exists r; auto]).
  specialize (CH _ IU). unfold verdict in CH. rewrite FA, <- Ed in CH.
  apply andb_prop in CH. destruct CH as [CH C5]. apply andb_prop in CH. destruct CH as [CH C4]. apply andb_prop in CH. destruct CH as [CH C3]. apply andb_prop in CH. destruct CH as [C1 C2]. apply Nat.eqb_eq in C1.
  assert (L' : length (ireaction o') = 4%nat) by (rewrite <- (map_length ispecie), R1, !map_length; exact L). split; [exact L'|]. split; [|split].
  - destruct (GO 0%nat) as (_ & ->). unfold good in C2. apply andb_prop in C2. destruct C2 as [C2 _]. apply andb_prop in C2. destruct C2 as [C2 _]. apply andb_prop in C2. destruct C2 as [_ C2]. now apply Z.eqb_eq.
  - rewrite (number_weight_species ks _ (map (relabel (swap id M)) r)); [|now rewrite R1, !map_map|now rewrite R2, map_map]. rewrite (weight_ok ks (company (NN maj id M)) _ HK (company_names maj id M)); [|intros it Hi; apply in_map_iff in Hi; destruct Hi as (x & <- & Hx); cbn [relabel ispecie]; destruct (company_swap maj id M (ispecie x) (D x Hx)) as (p & Hp & Ep); exists p; auto|rewrite map_length; now right].
    rewrite company_charged, (weight_relabel (swap id M) _ l); [now rewrite C1|apply swap_kind|apply swap_identity, company_fresh; apply HS|exact D].
  - intros p. assert (EG : (group_of o', snd (group (template maj a b i) r)) = (map (swap id M) (fst (fst (group (template maj a b i) r))), snd (fst (group (template maj a b i) r)), snd (group (template maj a b i) r))).
    { unfold group_of, group. cbn [fst snd]. now rewrite R1, R2. }
    rewrite (event_terms (forms_of i) _ _ (sector_Ms theta a b i) o' (snd (group (template maj a b i) r)) _ (sector_formed maj id M a b theta i HS)); [|destruct i; reflexivity|rewrite EG, good_relabel; exact C2|exact R3].
    rewrite EG, (gterms_relabel (swap id M) l) by assumption. rewrite (eval_light _ _ _ _ (fun _ => 0) _ C4). rewrite (eval_move _ _ q p (fun _ => 0) (fun _ => 0)) by auto.
    rewrite (same_eval _ _ _ _ _ _ C3). unfold eval. f_equal. apply map_ext_in. intros t Ht. unfold eval1. replace (massive t) with false; [reflexivity|].
    symmetry. clear -Ht. unfold expected, direct, crossed_ in Ht. destruct k as [|[|k]]; [| |destruct (_ =? _)%nat]; cbn in Ht; intuition (subst; reflexivity).
Qed.

Lemma in_order_sides r r' : in_order r = true -> in_order r' = true -> length r = 4%nat -> length r' = 4%nat -> length (lefts r) = length (lefts r') -> map iside r = map iside r'.
Proof.
  assert (HH : forall u v : list Z, length u = length v -> forallb (fun ab => (fst ab =? snd ab)%Z) (combine u v) = true -> u = v).
  { induction u as [|x u IH]; intros [|y v] L E; try discriminate; [reflexivity|]. cbn in E. apply andb_prop in E. destruct E as [E1 E]. apply Z.eqb_eq in E1. subst. f_equal. apply IH; [now injection L|exact E]. }
  assert (HL : forall r, length r = 4%nat -> in_order r = true -> map iside r = repeat (-1)%Z (length (lefts r)) ++ repeat 1%Z (4 - length (lefts r))).
  { intros x L E. apply HH; [|exact E]. rewrite app_length, !repeat_length, map_length, L.
    assert (length (lefts x) <= 4)%nat by (rewrite <- L; unfold lefts; clear; induction x as [|y x IH]; cbn; [lia|]; destruct (_ =? _)%Z; cbn; lia). lia. }
  intros A B C D E. rewrite (HL r C A), (HL r' D B), E. reflexivity.
Qed.
Lemma realised_sides maj id M a b theta out i r : settled maj id M a b -> pair_of (NN maj id M) a b theta out -> In r (kept maj a b i) ->
  exists o, In o out /\ map ispecie (ireaction o) = map (swap id M) (map ispecie r) /\ map iside (ireaction o) = map iside r.
Proof.
  intros HS HP Hr. destruct (pair_realised maj id M a b theta out i r HS HP Hr) as (o & Ho & A & B). exists o. split; [exact Ho|]. split; [exact A|].
  destruct (pair_described maj id M a b theta out o HS HP Ho) as (i' & r' & Hr' & A' & B' & _). rewrite B'. destruct (sector_facts maj id M a b HS) as (_ & HF).
  destruct (HF i) as (_ & D & O), (HF i') as (_ & D' & O'). apply in_order_sides; [apply O', kept_in, Hr'|apply O, kept_in, Hr|apply D', kept_in, Hr'|apply D, kept_in, Hr|].
  rewrite <- B, <- !lefts_count, B'. reflexivity.
Qed.

(* the event and the integrals of its four participants are there *)
Theorem C152_found : forall maj id M a b theta, settled maj id M a b -> exists out c d o, pair_of (NN maj id M) a b theta out /\ In o out /\ scatters (NN maj id M) a b c d o /\
  forall k, (k < 4)%nat -> exists q o', In o' out /\ turns q o k o'.
Proof.
  intros maj id M a b theta HS. destruct (pair_exists maj id M a b theta HS) as (out & HP). exists out.
  destruct (sector_facts maj id M a b HS) as (CH & HF). unfold checked152 in CH. apply andb_prop in CH. destruct CH as [CH _]. apply andb_prop in CH. destruct CH as [_ CH].
  apply existsb_exists in CH. destruct CH as (c & Ic & CH). apply andb_prop in CH. destruct CH as [CM CK]. rewrite forallb_forall in CK.
  set (l := map sp (company (N0 maj))) in *. assert (KS : keeps_species (swap id M) l) by (apply swap_species, HS).
  assert (GO : forall i r, In r (kept maj a b i) -> exists o, In o out /\ length (ireaction o) = 4%nat /\ forall j, species_at o j = option_map (swap id M) (gspecie (group (template maj a b i) r) j) /\ side_at o j = gside (group (template maj a b i) r) j).
  { intros i r Hr. destruct (realised_sides maj id M a b theta out i r HS HP Hr) as (o & Ho & A & B). exists o. split; [exact Ho|]. split; [rewrite <- (map_length ispecie), A, !map_length; destruct (HF i) as (_ & D & _); apply D, kept_in, Hr|].
    intros j. destruct (group_at o [] j) as (-> & ->). unfold gspecie, gside, group_of, group. cbn [fst snd]. rewrite A, B. split; [apply nth_error_map|reflexivity]. }
  assert (PU : forall u, In u (pictures_of maj a b) -> exists i r, In r (kept maj a b i) /\ u = (i, r, group (template maj a b i) r)).
  { intros u Hu. apply in_flat_map in Hu. destruct Hu as (i & _ & Hu). apply in_map_iff in Hu. destruct Hu as (r & <- & Hr). exists i, r. auto. }
  apply existsb_exists in CM. destruct CM as (u & Iu & CM). apply andb_prop in CM. destruct CM as [_ CM]. destruct (PU u Iu) as (i & r & Hr & ->). cbn [snd] in CM. destruct (GO i r Hr) as (o & Ho & Lo & Go).
  exists c, (place_b c), o. split; [exact HP|]. split; [exact Ho|]. unfold facing in CM. apply andb_prop in CM. destruct CM as [_ CM]. rewrite forallb_forall in CM.
  assert (Ea : swap id M (sp a) = sp a) by (apply SM_unswapped, neutrinos_in, HS). assert (Eb : swap id M (sp b) = sp b) by (apply SM_unswapped, neutrinos_in, HS).
  assert (EV : forall j, (j < 4)%nat -> species_at o j = option_map (swap id M) (gspecie (event_group maj a b c) j) /\ side_at o j = gside (event_group maj a b c) j).
  { intros j Hj. specialize (CM j (proj2 (in_four j) Hj)). replace (moved four j) with j in CM by (destruct j as [|[|[|[|j]]]]; try reflexivity; lia). apply andb_prop in CM. destruct CM as [X Y]. apply opt_same_eq in X. apply Z.eqb_eq in Y.
    destruct (Go j) as (-> & ->). rewrite X, Y. split; [reflexivity|]. unfold gside, event_group. cbn [fst snd nth]. apply Z.mul_1_l. }
  assert (SC : scatters (NN maj id M) a b c (place_b c) o).
  { split; [exact Lo|]. split; [destruct Ic as [<-|[<-|[]]]; cbn; auto|].
    pose proof (EV 0%nat ltac:(lia)) as (V0 & W0). pose proof (EV 1%nat ltac:(lia)) as (V1 & W1). pose proof (EV 2%nat ltac:(lia)) as (V2 & W2). pose proof (EV 3%nat ltac:(lia)) as (V3 & W3).
    destruct Ic as [<-|[<-|[]]]; unfold event_group, gspecie, gside in V0, W0, V1, W1, V2, W2, V3, W3; cbn [fst snd Nat.eqb map nth_error option_map nth] in V0, W0, V1, W1, V2, W2, V3, W3; rewrite ?(swap_N0 maj id M), ?Ea, ?Eb in *; cbn [place_b Nat.sub]; auto 12. }
  split; [exact SC|]. intros k Hk. specialize (CK k (proj2 (in_four k) Hk)). apply existsb_exists in CK. destruct CK as (u' & Iu' & CK). apply existsb_exists in CK. destruct CK as (q & Iq & CK). destruct (PU u' Iu') as (i' & r' & Hr' & ->). cbn [snd] in CK.
  destruct (GO i' r' Hr') as (o' & Ho' & _ & Go'). exists q, o'. split; [exact Ho'|]. apply arrangements4_iff in Iq. unfold facing in CK. apply andb_prop in CK. destruct CK as [CK0 CK]. apply Nat.eqb_eq in CK0. rewrite forallb_forall in CK.
  split; [exact Iq|]. split; [exact CK0|]. intros j Hj. specialize (CK j (proj2 (in_four j) Hj)). apply andb_prop in CK. destruct CK as [X Y]. apply opt_same_eq in X. apply Z.eqb_eq in Y.
  assert (HM : (moved q j < 4)%nat) by (unfold moved; apply in_four, (Permutation_in _ Iq), nth_In; rewrite (Permutation_length Iq); exact Hj).
  destruct (Go' j) as (-> & ->), (EV (moved q j) HM) as (-> & ->), (EV k Hk) as (_ & ->). rewrite X, Y. auto.
Qed.
Print Assumptions C152_found.

(* the rate at which each participant is changed by the event: the two terms of
   the amplitude with the factors of `share` instead of with the same ones *)
Theorem C152_rates : forall maj id M a b theta ks E out o o' c d k q x p, settled maj id M a b -> pair_of (NN maj id M) a b theta out -> sees ks (company (NN maj id M)) ->
  scatters (NN maj id M) a b c d o -> In o' out -> turns q o k o' -> (k < 4)%nat -> (forall j, 0 <= x j) ->
  exists v, functional Full (legs E o) (map x four) = Ok v /\
    event_rate ks E o' (fun j => x (moved q j)) (fun j => p (moved q j)) =
    Ok (- IZR (side_at o k) * v * (32 * G_Fermi ^ 2 * theta ^ 2) * (fst (share maj c k) * (dot (p 0%nat) (p 1%nat) * dot (p c) (p d)) + snd (share maj c k) * (dot (p 0%nat) (p d) * dot (p 1%nat) (p c)))).
Proof.
  intros maj id M a b theta ks E out o o' c d k q x p HS HP HK HC Ho' HT Hk Hx. destruct (turned_amplitude maj id M a b theta ks out o o' c d k q HS HP HK HC Ho' HT Hk) as (L' & S' & W & A).
  assert (HI : forall it, In it (ireaction o) -> iside it = (-1)%Z \/ iside it = 1%Z).
  { destruct HC as (L & _ & _ & _ & _ & _ & T0 & T1 & T2 & T3). unfold side_at in *. destruct (ireaction o) as [|a0 [|a1 [|a2 [|a3 [|]]]]]; try discriminate L. cbn [nth_error] in *. intros it Hi. cbn in Hi. intuition (subst; auto). }
  destruct (turned_functional E o o' k q x HT) as (v & V1 & V2); auto; [apply HC|apply HC|]. exists v. split; [exact V1|]. unfold event_rate. rewrite W. cbn [rbind]. rewrite V2. cbn [rbind]. rewrite A. f_equal.
  unfold eval, expected, share, expected_weight, direct, crossed_, coupling. destruct k as [|[|k]]; [| |destruct (_ =? _)%nat]; destruct maj; cbn [map fold_right fst snd INR eval1 massive tsign tm t1 t2 t3 t4]; unfold eval1; cbn [massive tsign tm t1 t2 t3 t4]; ring.
Qed.
Print Assumptions C152_rates.

(* so that the energy of the participants is not conserved: for no sterile
   neutrino, no mixing and no two flavours *)
Theorem C152_refuted : forall maj id M a b theta ks E out o c d, settled maj id M a b -> theta <> 0 -> pair_of (NN maj id M) a b theta out -> sees ks (company (NN maj id M)) ->
  scatters (NN maj id M) a b c d o -> ~ balanced ks E out o.
Proof.
  intros maj id M a b theta ks E out o c d HS Hth HP HK HC (os & qs & HO & HB).
  set (m := IZR M * eV). assert (Hm : 0 < m) by (apply Rmult_lt_0_compat; [apply IZR_lt, HS|apply ParamsProofs.eV_pos]).
  set (pc := (m / 2, 0, 0, - (m / 2)) : vec4). set (pd := (3 * m / 2, 0, 0, 3 * m / 2) : vec4).
  set (p := fun j : nat => match j with 0%nat => (m, 0, 0, 0) : vec4 | 1%nat => (m, 0, 0, m) : vec4 | _ => if (j =? c)%nat then pc else pd end).
  set (x := fun j : nat => match j with 0%nat => 1 | 1%nat => 1 | _ => 0 end).
  assert (Hx : forall j, 0 <= x j) by (intros [|[|j]]; cbn; lra).
  assert (HR : forall k, (k < 4)%nat -> event_rate ks E (os k) (fun j => x (moved (qs k) j)) (fun j => p (moved (qs k) j)) =
    Ok (IZR (side_at o k) * (32 * G_Fermi ^ 2 * theta ^ 2) * (fst (share maj c k) * (dot (p 0%nat) (p 1%nat) * dot (p c) (p d)) + snd (share maj c k) * (dot (p 0%nat) (p d) * dot (p 1%nat) (p c))))).
  { intros k Hk. destruct (HO k Hk) as (I & T). destruct (C152_rates maj id M a b theta ks E out o (os k) c d k (qs k) x p HS HP HK HC I T Hk Hx) as (v & V & R). rewrite R. f_equal.
    assert (Ev : v = -1).
    { destruct HC as (L & _ & _ & _ & _ & _ & T0 & T1 & T2 & T3). rewrite (full_places E o x L T0 Hx) in V. injection V as <-. unfold gain, loss, four. cbn [map prod]. unfold factor, leg_at. cbn [fst snd side]. rewrite T0, T1, T2, T3. cbn [Z.eqb Pos.eqb]. cbn [x]. ring. }
    rewrite Ev. ring. }
  assert (HPos : possible o p).
  { destruct HC as (L & HC & S0 & S1 & Sc & Sd & T0 & T1 & T2 & T3). destruct HS as (Ha & Hb & _).
    assert (Ma : smass (sp a) = 0%Z) by (clear -Ha; each Ha; reflexivity). assert (Mb : smass (sp b) = 0%Z) by (clear -Hb; each Hb; reflexivity). assert (MN : smass (sp (NN maj id M)) = M) by now destruct maj.
    assert (EM : mass_at o 0 = m /\ mass_at o 1 = 0 /\ mass_at o c = 0 /\ mass_at o d = 0) by (rewrite !mass_species, S0, S1, Sc, Sd, Ma, Mb, MN; unfold m; repeat split; ring). destruct EM as (M0 & M1 & Mc & Md).
    split.
    - intros j Hj. destruct HC as [(-> & ->)|(-> & ->)]; destruct j as [|[|[|[|j]]]]; try lia; rewrite ?M0, ?M1, ?Mc, ?Md; cbn [p energy dot Nat.eqb pc pd]; (split; [lra|field]).
    - intros f Hf. rewrite T0, T1, T2, T3. destruct HC as [(-> & ->)|(-> & ->)]; destruct Hf as [<-|[<-|[<-|[<-|[]]]]]; cbn [p energy along_x along_y along_z Nat.eqb pc pd]; field. }
  pose proof (HB x p _ Hx HPos HR) as Z0. cbv beta in Z0. destruct HC as (_ & HC & _ & _ & _ & _ & T0 & T1 & T2 & T3). rewrite T0, T1, T2, T3 in Z0.
  assert (HG : 0 < 32 * G_Fermi ^ 2 * theta ^ 2) by (apply Rmult_lt_0_compat; [apply Rmult_lt_0_compat; [lra|apply pow_lt, MatrixProps.G_pos]|rewrite <- Rsqr_pow2; now apply Rlt_0_sqr]).
  assert (H5 : 0 < 32 * G_Fermi ^ 2 * theta ^ 2 * m ^ 5) by (apply Rmult_lt_0_compat; [exact HG|now apply pow_lt]).
  set (g := 32 * G_Fermi ^ 2 * theta ^ 2) in *.
  destruct HC as [(-> & ->)|(-> & ->)]; destruct maj; cbn [p energy dot Nat.eqb pc pd share fst snd] in Z0;
  (replace (_ + _ + _ + _) with (3 / 2 * (g * m ^ 5)) in Z0 by field; lra) || (replace (_ + _ + _ + _) with (- (3 / 2) * (g * m ^ 5)) in Z0 by field; lra).
Qed.
Print Assumptions C152_refuted.

(* a keV sterile neutrino *)
Example C152_ex : settled true 30 7000 neutrino_e neutrino_mu /\ settled false 41 10000000 neutrino_tau neutrino_e /\ share true 2 0 = (1, 1) /\ share true 2 1 = (2, 0) /\ share true 2 2 = (2, 2) /\ share true 2 3 = (0, 2).
Proof. repeat split; cbn; try tauto; try lia; discriminate. Qed.
