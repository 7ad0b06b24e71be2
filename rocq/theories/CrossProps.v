(* C66-C74, C104. Specification: `placed base sd` is the base reaction with
   every particle on the side sd of its index, crossed when it changes side;
   lefts/rights select the sides of a reaction (CrossProofs2). *)
From Coq Require Import Permutation Sorted Reals Lra.
From Verif Require Import Base CrossModel CrossProofs CrossProofs2 CrossProofs3 CrossProofs4.
Close Scope R_scope.
Open Scope nat_scope.

(* nu + e -> nu + e, the neutrino Dirac *)
Definition nu := mkSpecie 0 "neutrino" 0 false.
Definition el := mkSpecie 1 "electron" 5 false.
Definition ps0 : list specie * list specie := ([nu; el], [nu; el]).
Definition fs0 : list bool * list bool := ([false; false], [false; false]).
Lemma case0 : flags_ok ps0 fs0 /\ distinct_species (base_items ps0 fs0).
Proof.
  split; [split; reflexivity|]. intros x y Hx Hy. cbn in Hx, Hy.
  repeat (destruct Hx as [<-|Hx]; [repeat (destruct Hy as [<-|Hy]; [cbn; intros [E|E]; try reflexivity; discriminate|]); destruct Hy|]). destruct Hx.
Qed.

(* ---------- C66 ---------- *)
Theorem C66_charges_conserved : forall ps fs rs r q, flags_ok ps fs -> distinct_species (base_items ps fs) ->
  (forall it, In it (base_items ps fs) -> majorana (ispecie it) = true -> q (ispecie it) = 0%Z) ->
  conserved q (base_items ps fs) -> reactions_map ps fs = Ok rs -> In r rs -> conserved q r.
Proof.
  intros ps fs rs r q HF HD HM HC E Hr. pose proof (shape_conserves _ q r (base_two_sided ps fs) (reactions_sound ps fs rs r HF HD E Hr) HM) as H.
  unfold conserved in *. lia.
Qed.
Print Assumptions C66_charges_conserved.
Theorem C66_imbalance_preserved : forall ps fs rs r q, flags_ok ps fs -> distinct_species (base_items ps fs) ->
  (forall it, In it (base_items ps fs) -> majorana (ispecie it) = true -> q (ispecie it) = 0%Z) ->
  reactions_map ps fs = Ok rs -> In r rs ->
  (side_charge q (rights r) - side_charge q (lefts r) = side_charge q (rights (base_items ps fs)) - side_charge q (lefts (base_items ps fs)))%Z.
Proof. intros ps fs rs r q HF HD HM E Hr. exact (shape_conserves _ q r (base_two_sided ps fs) (reactions_sound ps fs rs r HF HD E Hr) HM). Qed.
Print Assumptions C66_imbalance_preserved.
Example C66_case : conserved (fun s => if sid s =? 1 then (-1)%Z else 0%Z) (base_items ps0 fs0) /\
  match reactions_map ps0 fs0 with Ok rs => length rs = 6 | Raise _ => False end.
Proof. split; [reflexivity|]. vm_compute. reflexivity. Qed.
(* a Majorana species with a charge breaks it: crossing does not flip its flag *)
Theorem C66_majorana_charge_refuted : exists ps fs rs r q, flags_ok ps fs /\ distinct_species (base_items ps fs) /\
  conserved q (base_items ps fs) /\ reactions_map ps fs = Ok rs /\ In r rs /\ ~ conserved q r.
Proof.
  set (N := mkSpecie 0 "N" 1 true). set (B := mkSpecie 1 "B" 5 true).
  assert (E : exists rs, reactions_map ([N; B], [N; B]) ([false; false], [false; false]) = Ok rs /\
     existsb (fun r => negb (side_charge (fun s => if (sid s =? 0)%nat then 1%Z else 0%Z) (lefts r) =? side_charge (fun s => if (sid s =? 0)%nat then 1%Z else 0%Z) (rights r))%Z) rs = true).
  { assert (E : match reactions_map ([N; B], [N; B]) ([false; false], [false; false]) with Ok rs =>
       existsb (fun r => negb (side_charge (fun s => if (sid s =? 0)%nat then 1%Z else 0%Z) (lefts r) =? side_charge (fun s => if (sid s =? 0)%nat then 1%Z else 0%Z) (rights r))%Z) rs | Raise _ => false end = true) by (vm_compute; reflexivity).
    destruct (reactions_map _ _) as [rs|]; [|discriminate E]. exists rs. split; [reflexivity|exact E]. }
  destruct E as (rs & E & X). apply existsb_exists in X. destruct X as (r & Hr & X). apply Bool.negb_true_iff, Z.eqb_neq in X.
  exists ([N; B], [N; B]), ([false; false], [false; false]), rs, r, (fun s => if (sid s =? 0)%nat then 1%Z else 0%Z). split; [split; reflexivity|]. split.
  { intros x y Hx Hy. cbn in Hx, Hy.
    repeat (destruct Hx as [<-|Hx]; [repeat (destruct Hy as [<-|Hy]; [cbn; intros [E'|E']; try reflexivity; discriminate|]); destruct Hy|]). destruct Hx. }
  split; [reflexivity|]. auto.
Qed.
Print Assumptions C66_majorana_charge_refuted.

(* ---------- C67 ---------- *)
Theorem C67_well_formed : forall ps fs rs r, flags_ok ps fs -> distinct_species (base_items ps fs) -> reactions_map ps fs = Ok rs -> In r rs ->
  exists sd h t rhs, (forall k, sd k = (-1)%Z \/ sd k = 1%Z) /\ Permutation r (placed (base_items ps fs) sd) /\ r = h :: t ++ rhs /\ rhs <> [] /\
  (forall x, In x (h :: t) -> iside x = (-1)%Z) /\ (forall x, In x rhs -> iside x = 1%Z) /\
  anti h = false /\ StronglySorted before t /\ StronglySorted before rhs.
Proof.
  intros ps fs rs r HF HD E Hr. destruct (reactions_sound ps fs rs r HF HD E Hr) as (sd & h & t & rhs & H1 & H2 & H3 & H4 & H5 & H6 & H7 & H8 & H9 & _).
  exists sd, h, t, rhs. auto 12.
Qed.
Print Assumptions C67_well_formed.
Theorem C67_each_particle_once : forall ps fs rs r, flags_ok ps fs -> distinct_species (base_items ps fs) -> reactions_map ps fs = Ok rs -> In r rs ->
  Permutation (map index r) (seq 0 (length (fst ps) + length (snd ps))).
Proof. intros ps fs rs r HF HD E Hr. exact (shape_indices ps fs r HF (reactions_sound ps fs rs r HF HD E Hr)). Qed.
Print Assumptions C67_each_particle_once.
Theorem C67_no_repetition : forall ps fs, flags_ok ps fs -> distinct_species (base_items ps fs) ->
  exists rs, reactions_map ps fs = Ok rs /\ NoDup rs /\
  forall r r', In r rs -> In r' rs -> hd_error r = hd_error r' -> Permutation r r' -> r = r'.
Proof.
  intros ps fs HF HD. destruct (reactions_map_spec ps fs HF HD) as (rs & E & N & _). exists rs. split; [exact E|]. split; [exact N|].
  intros r r' Hr Hr'. apply (shape_unique (base_items ps fs)); eapply reactions_sound; eauto.
Qed.
Print Assumptions C67_no_repetition.
Example C67_case : flags_ok ps0 fs0 /\ distinct_species (base_items ps0 fs0).
Proof. exact case0. Qed.

(* ---------- C68 ---------- *)
Theorem C68_complete : forall ps fs rs sd f, flags_ok ps fs -> distinct_species (base_items ps fs) -> reactions_map ps fs = Ok rs ->
  (forall k, sd k = (-1)%Z \/ sd k = 1%Z) ->
  In f (base_items ps fs) -> sd (index f) = (-1)%Z -> (exists g, In g (base_items ps fs) /\ sd (index g) = 1%Z) ->
  anti (to_side (-1) f) = false ->
  ~ too_light (lefts (placed (base_items ps fs) sd)) (rights (placed (base_items ps fs) sd)) ->
  ~ too_light (rights (placed (base_items ps fs) sd)) (lefts (placed (base_items ps fs) sd)) ->
  exists r, In r rs /\ hd_error r = Some (to_side (-1) f) /\ Permutation r (placed (base_items ps fs) sd).
Proof. exact reactions_complete. Qed.
Print Assumptions C68_complete.
(* nu-bar on the right, e e+ on the left: e + e+ -> nu + nu-bar is generated *)
Example C68_case : exists f sd, In f (base_items ps0 fs0) /\ sd (index f) = (-1)%Z /\ (exists g, In g (base_items ps0 fs0) /\ sd (index g) = 1%Z) /\
  anti (to_side (-1) f) = false /\ length (lefts (placed (base_items ps0 fs0) sd)) = 2 /\ length (rights (placed (base_items ps0 fs0) sd)) = 2.
Proof.
  exists (mkItem (-1) el false 1 false), (fun k => if (k =? 1) || (k =? 3) then (-1)%Z else 1%Z). split; [cbn; auto|]. split; [reflexivity|].
  split; [exists (mkItem (-1) nu false 0 false); cbn; auto|]. repeat split.
Qed.

(* ---------- C69 ---------- *)
Theorem C69_no_impossible_decay : forall ps fs rs r, flags_ok ps fs -> distinct_species (base_items ps fs) -> reactions_map ps fs = Ok rs -> In r rs ->
  ~ too_light (lefts r) (rights r) /\ ~ too_light (rights r) (lefts r).
Proof.
  intros ps fs rs r HF HD E Hr. destruct (reactions_sound ps fs rs r HF HD E Hr) as (sd & h & t & rhs & _ & _ & -> & _ & S1 & S2 & _ & _ & _ & T1 & T2).
  change (h :: t ++ rhs) with ((h :: t) ++ rhs). destruct (lefts_rights _ _ S1 S2) as (-> & ->). auto.
Qed.
Print Assumptions C69_no_impossible_decay.
(* a split with a given first particle is generated exactly when it is possible *)
Theorem C69_dropped_only_if_impossible : forall ps fs rs sd f, flags_ok ps fs -> distinct_species (base_items ps fs) -> reactions_map ps fs = Ok rs ->
  (forall k, sd k = (-1)%Z \/ sd k = 1%Z) ->
  In f (base_items ps fs) -> sd (index f) = (-1)%Z -> (exists g, In g (base_items ps fs) /\ sd (index g) = 1%Z) ->
  anti (to_side (-1) f) = false ->
  ((exists r, In r rs /\ hd_error r = Some (to_side (-1) f) /\ Permutation r (placed (base_items ps fs) sd)) <->
   ~ too_light (lefts (placed (base_items ps fs) sd)) (rights (placed (base_items ps fs) sd)) /\
   ~ too_light (rights (placed (base_items ps fs) sd)) (lefts (placed (base_items ps fs) sd))).
Proof.
  intros ps fs rs sd f HF HD E Hs If Hf Hg Ha. split.
  - intros (r & Hr & _ & HP). destruct (C69_no_impossible_decay ps fs rs r HF HD E Hr) as (A & B).
    split; intros T; [apply A|apply B]; (eapply too_light_perm; [| |exact T]; apply filter_perm; now symmetry).
  - intros (A & B). eapply reactions_complete; eauto.
Qed.
Print Assumptions C69_dropped_only_if_impossible.
Example C69_case : exists l l', too_light l l' /\ ~ too_light l' l /\ too_light [mkItem (-1) el false 0 false] [mkItem 1 el false 1 false].
Proof.
  exists [mkItem (-1) nu false 0 false], [mkItem 1 el false 1 false; mkItem 1 el true 2 false]. split; [|split].
  - eexists. split; [reflexivity|]. vm_compute. discriminate.
  - intros (x & E & _). discriminate.
  - eexists. split; [reflexivity|]. vm_compute. discriminate.
Qed.

(* ---------- C70 ---------- *)
Open Scope R_scope.
(* |M|^2 of the crossed reaction is |M|^2 of the base one with the momenta of
   the crossed particles reversed, times -1 for every crossed particle *)
Theorem C70_crossing_symmetry : forall ps fs rs r o K1 K2 K, flags_ok ps fs -> distinct_species (base_items ps fs) ->
  (length (fst ps) + length (snd ps) = 4)%nat -> reactions_map ps fs = Ok rs -> In r rs -> Permutation o (seq 0 4) ->
  exists o' K2', apply_order r (M4 o K1 K2 K) = Ok (M4 o' K1 K2' K) /\ Permutation o' (seq 0 4) /\
  (exists a b c d, o' = [a; b; c; d] /\ (a < b)%nat /\ (c < d)%nat) /\
  forall p m p' m', (forall j it, nth_error r j = Some it -> p' j = (if crossed it then neg (p (index it)) else p (index it)) /\ m' j = m (index it)) ->
  Msq (M4 o' K1 K2' K) p' m' = (-1) ^ crossings r * Msq (M4 o K1 K2 K) p m.
Proof.
  intros ps fs rs r o K1 K2 K HF HD H4 E Hr HO. apply apply_order_spec; auto.
  rewrite <- H4. exact (C67_each_particle_once ps fs rs r HF HD E Hr).
Qed.
Print Assumptions C70_crossing_symmetry.
Example C70_case : exists r, apply_order r (M4 [0; 1; 2; 3]%nat 1 2 0) = Ok (M4 [0; 3; 1; 2]%nat 1 (2 * -1) 0) /\ Permutation (map index r) (seq 0 4).
Proof.
  exists [mkItem (-1) nu false 0 false; mkItem (-1) nu true 2 true; mkItem 1 el false 3 false; mkItem 1 el true 1 true].
  split; [reflexivity|]. cbn. apply perm_skip. eapply perm_trans; [|apply perm_swap]. apply perm_swap || apply perm_skip. apply perm_swap.
Qed.

(* ---------- C71 ---------- *)
Theorem C71_no_duplicates : forall l, all_plain l -> exists out, deduplicate l = Ok out /\
  ForallOrdPairs (fun i j => ~ similar i j) out /\
  (forall i, In i l -> exists o, In o out /\ similar i o) /\
  map header out = map header (firsts [] l).
Proof.
  intros l HL. destruct (dedup_spec l HL) as (out & E & _ & HO & Hh & _). exists out. split; [exact E|]. split; [exact HO|]. split; [|exact Hh].
  intros i Hi. destruct (firsts_represents l i [] Hi) as [(o & [] & _)|(o' & Ho' & So)].
  apply (in_map header) in Ho'. rewrite <- Hh in Ho'. apply in_map_iff in Ho'. destruct Ho' as (o & Eo & Ho).
  exists o. split; [exact Ho|]. eapply similar_header; [reflexivity| |exact So]. now symmetry.
Qed.
Print Assumptions C71_no_duplicates.
(* without restriction on the matrix elements, whenever it returns *)
Theorem C71_any_matrix_elements : forall l out, deduplicate l = Ok out ->
  ForallOrdPairs (fun i j => ~ similar i j) out /\ map header out = map header (firsts [] l).
Proof.
  assert (A : forall new l l', ForallOrdPairs (fun i j => ~ similar i j) l -> append new l = Ok l' ->
    (map header l' = map header l /\ existsb (same_integral new) l = true) \/ (map header l' = map header l ++ [header new] /\ existsb (same_integral new) l = false)).
  { intros new l. induction l as [|old t IH]; intros l' HO E; cbn [append] in E.
    - injection E as <-. right. split; reflexivity.
    - inversion HO as [|? ? O1 O2]; subst. cbn [existsb]. destruct (same_integral new old) eqn:S1.
      + destruct (merge_Ms (Ms old) (Ms new)) as [m|]; [|discriminate]. cbn in E. injection E as <-. left. split; reflexivity.
      + destruct (append new t) as [r|] eqn:Er; [|discriminate]. cbn in E. injection E as <-.
        destruct (IH r O2 eq_refl) as [(H & H')|(H & H')]; [left|right]; cbn; rewrite H; auto. }
  assert (B : forall l acc out, ForallOrdPairs (fun i j => ~ similar i j) acc -> rfold (fun acc i => append i acc) acc l = Ok out ->
    ForallOrdPairs (fun i j => ~ similar i j) out /\ map header out = map header acc ++ map header (firsts acc l)).
  { induction l as [|i t IH]; intros acc out HO E; cbn [rfold] in E.
    - injection E as <-. split; [exact HO|]. cbn. now rewrite app_nil_r.
    - destruct (append i acc) as [acc'|] eqn:Ea; [|discriminate]. destruct (A i acc acc' HO Ea) as [(H & H')|(H & H')].
      + assert (HO' : ForallOrdPairs (fun i j => ~ similar i j) acc') by (eapply ordpairs_header; [symmetry; exact H|exact HO]).
        destruct (IH acc' out HO' E) as (Q1 & Q2). split; [exact Q1|]. rewrite Q2, H. cbn [firsts]. rewrite H'. now rewrite (firsts_header t acc' acc H).
      + assert (HN : forall y, In y acc -> ~ similar y i).
        { intros y Hy S1. assert (existsb (same_integral i) acc = true) by (apply existsb_exists; exists y; split; [exact Hy|apply same_integral_spec; now apply similar_sym]). congruence. }
        assert (HO' : ForallOrdPairs (fun i j => ~ similar i j) acc') by (apply (ordpairs_header (acc ++ [i])); [now rewrite map_app|now apply ordpairs_app_one]).
        destruct (IH acc' out HO' E) as (Q1 & Q2). split; [exact Q1|]. rewrite Q2, H. cbn [firsts]. rewrite H'. cbn [map]. rewrite <- app_assoc. cbn.
        do 2 f_equal. f_equal. apply firsts_header. now rewrite H, map_app. }
  intros l out E. apply (B l [] out) in E; [exact E|constructor].
Qed.
Print Assumptions C71_any_matrix_elements.
Example C71_case : exists i j, similar i j /\ ireaction i <> ireaction j /\ all_plain [i; j] /\ exists o, deduplicate [i; j] = Ok [o].
Proof.
  exists (mkIntegral nu [mkItem (-1) nu false 0 false; mkItem 1 el false 1 false] []), (mkIntegral nu [mkItem (-1) nu false 2 false; mkItem 1 el false 1 false] []).
  split; [repeat split; reflexivity|]. split; [discriminate|]. split; [repeat constructor|]. eexists. reflexivity.
Qed.

(* ---------- C72 ---------- *)
Theorem C72_amplitude_preserved : forall l, all_plain l -> exists out, deduplicate l = Ok out /\
  forall o, In o out -> forall p m, total (Ms o) p m = fold_right Rplus 0 (map (fun i => total (Ms i) p m) (filter (fun i => same_integral i o) l)).
Proof. intros l HL. destruct (dedup_spec l HL) as (out & E & _ & _ & _ & HT). exists out. split; [exact E|exact HT]. Qed.
Print Assumptions C72_amplitude_preserved.
(* the whole construction: the integrals of an interaction carry, summed over
   the reactions they stand for, the crossed amplitudes of these reactions; all
   these reactions have the same species at the same positions *)
Theorem C72_cross_generating : forall ps fs Ms, flags_ok ps fs -> distinct_species (base_items ps fs) -> (length (fst ps) + length (snd ps) = 4)%nat -> Forall proper Ms ->
  exists rs out, reactions_map ps fs = Ok rs /\ cross_generating ps fs Ms = Ok out /\
  ForallOrdPairs (fun i j => ~ similar i j) out /\
  (forall o, In o out -> exists r, In r rs /\ header o = header (of_reaction r)) /\
  (forall r, In r rs -> exists o, In o out /\ similar (of_reaction r) o /\ map ispecie r = map ispecie (ireaction o)) /\
  forall o, In o out -> forall p m, total (CrossModel.Ms o) p m =
    fold_right Rplus 0 (map (fun r => (-1) ^ crossings r * total Ms (base_momentum r p) (base_mass r m)) (filter (fun r => same_integral (of_reaction r) o) rs)).
Proof. exact cross_generating_spec. Qed.
Print Assumptions C72_cross_generating.
Example C72_case : proper (M4 [0; 1; 2; 3]%nat 1 2 0) /\ proper (M4 [0; 3; 1; 2]%nat 1 0 0) /\ flags_ok ps0 fs0 /\ distinct_species (base_items ps0 fs0).
Proof.
  split; [exists [0; 1; 2; 3]%nat, 1, 2; split; [reflexivity|apply Permutation_refl]|]. split; [|exact case0].
  exists [0; 3; 1; 2]%nat, 1, 0. split; [reflexivity|]. cbn. apply perm_skip. eapply perm_trans; [apply perm_swap|]. apply perm_skip. apply perm_swap.
Qed.

(* ---------- C73 ---------- *)
(* three-particle constants add up *)
Theorem C73_three_particle_constants : forall K Ks, 0 < K -> Forall (fun K => 0 < K) Ks ->
  merge_Ms [M3 K] (map M3 Ks) = Ok [M3 (fold_left Rplus Ks K)].
Proof. intros K Ks HK HF. now apply three_particle_constants. Qed.
Print Assumptions C73_three_particle_constants.
(* four-particle ones do not: the second is lost *)
Theorem C73_four_particle_constant_refuted : forall o o' K K', K <> 0 -> merge_Ms [M4 o 0 0 K] [M4 o' 0 0 K'] = Ok [M4 o (0 + 0) (0 + 0) K].
Proof. intros o o' K K' HK. unfold merge_Ms. cbn [rfold merge_step reduce K_of]. destruct (Req_EM_T K 0); [contradiction|]. reflexivity. Qed.
Print Assumptions C73_four_particle_constant_refuted.
(* a vanishing three-particle constant stops the construction *)
Theorem C73_zero_constant_refuted : forall K', merge_Ms [M3 0] [M3 K'] = Raise AttributeError.
Proof. intros K'. unfold merge_Ms. cbn [rfold merge_step reduce K_of]. destruct (Req_EM_T 0 0); [reflexivity|contradiction]. Qed.
Print Assumptions C73_zero_constant_refuted.
Example C73_case : Forall (fun K => 0 < K) [2; 3] /\ fold_left Rplus [2; 3] 1 = 6.
Proof. split; [repeat constructor; lra|]. cbn. lra. Qed.

(* ---------- C74 ---------- *)
Theorem C74_order_validated : forall o K1 K2 K,
  (~ NoDup o -> new_M4 (Some o) K1 K2 K = Raise GenericException) /\
  (NoDup o -> exists a b, new_M4 (Some o) K1 K2 K = Ok (M4 (a ++ b) K1 K2 K) /\ Permutation a (firstn 2 o) /\ Permutation b (skipn 2 o) /\ Sorted le a /\ Sorted le b).
Proof. exact new_M4_spec. Qed.
Print Assumptions C74_order_validated.
Theorem C74_pairs_unordered : forall o o' K1 K2 K, Permutation (firstn 2 o) (firstn 2 o') -> Permutation (skipn 2 o) (skipn 2 o') ->
  new_M4 (Some o) K1 K2 K = new_M4 (Some o') K1 K2 K.
Proof. exact new_M4_pairs. Qed.
Print Assumptions C74_pairs_unordered.
Example C74_case : new_M4 (Some [1; 0; 3; 2]%nat) 1 1 0 = Ok (M4 [0; 1; 2; 3]%nat 1 1 0) /\ new_M4 (Some [1; 1; 3; 2]%nat) 1 1 0 = Raise GenericException.
Proof. split; reflexivity. Qed.

(* ---------- C104 ---------- *)
(* the claim: Interaction(integrals) holds the given integrals, duplicates
   merged; it fails for every argument, even the empty list *)
Theorem C104_explicit_interaction_refuted : ~ exists l out, all_plain l /\ interaction_init None (Some l) = Ok out.
Proof. intros (l & out & _ & E). discriminate E. Qed.
Print Assumptions C104_explicit_interaction_refuted.
(* only a class attribute is ever used, and that one is deduplicated *)
Theorem C104_class_attribute : forall l given, all_plain l -> exists out, interaction_init (Some l) given = Ok out /\
  ForallOrdPairs (fun i j => ~ similar i j) out /\ (forall i, In i l -> exists o, In o out /\ similar i o).
Proof. intros l given HL. destruct (C71_no_duplicates l HL) as (out & E & A & B & _). exists out. auto. Qed.
Print Assumptions C104_class_attribute.
Example C104_case : all_plain [] /\ deduplicate [] = Ok [].
Proof. split; [constructor|reflexivity]. Qed.
