(* proofs about CrossModel: the complete construction, constants, orders *)
From Coq Require Import Permutation Sorted Reals Lra.
From Verif Require Import Base CrossModel CrossProofs CrossProofs2 CrossProofs3.
From Verif Require ReactionsProofs.
Open Scope R_scope.

(* ---------- merged integrals have the same species at every position ---------- *)
Definition sle (a b : specie) : Prop := String.compare (sname a) (sname b) = Lt \/ a = b.
Lemma sle_antisym a b : sle a b -> sle b a -> a = b.
Proof.
  intros [H|H] [G|G]; auto. pose proof (ReactionsProofs.string_lt_trans _ _ _ H G) as T. rewrite ReactionsProofs.string_compare_refl in T. discriminate.
Qed.
Lemma species_sorted s t : StronglySorted before t -> (forall x, In x t -> iside x = s) -> StronglySorted sle (map ispecie t).
Proof.
  intros H. induction H as [|x t H IH HF]; cbn; intros HS; [constructor|]. constructor; [apply IH; auto|].
  rewrite Forall_forall in *. intros y Hy. apply in_map_iff in Hy. destruct Hy as (z & <- & Hz).
  pose proof (HF z Hz) as B. unfold before in B. unfold sle.
  destruct B as [B|(_ & [B|(B & _)])]; auto. rewrite (HS x), (HS z) in B by auto. lia.
Qed.
Lemma species_unique a b : Permutation (map sid a) (map sid b) -> (forall x y, In x (a ++ b) -> In y (a ++ b) -> sid x = sid y -> x = y) ->
  StronglySorted sle a -> StronglySorted sle b -> a = b.
Proof.
  revert b. induction a as [|x a IH]; intros b HP HI HA HB.
  - apply Permutation_nil in HP. destruct b; [reflexivity|discriminate].
  - destruct b as [|y b]; [apply Permutation_sym, Permutation_nil in HP; discriminate|].
    inversion HA as [|? ? A1 A2]; subst. inversion HB as [|? ? B1 B2]; subst. rewrite Forall_forall in A2, B2.
    assert (E : x = y).
    { assert (Ix : In (sid x) (map sid (y :: b))) by (eapply Permutation_in; [exact HP|now left]).
      assert (Iy : In (sid y) (map sid (x :: a))) by (eapply Permutation_in; [symmetry; exact HP|now left]).
      apply in_map_iff in Ix. destruct Ix as (z & Ez & Hz). apply in_map_iff in Iy. destruct Iy as (w & Ew & Hw).
      assert (z = x) by (apply HI; auto; apply in_or_app; [now right|left; now left]). subst z.
      assert (w = y) by (apply HI; auto; apply in_or_app; [now left|right; now left]). subst w.
      destruct Hz as [->|Hz]; [reflexivity|]. destruct Hw as [->|Hw]; [reflexivity|]. apply sle_antisym; auto. }
    subst y. f_equal. apply IH; auto.
    + cbn in HP. eapply Permutation_cons_inv; eauto.
    + intros u v Hu Hv. apply HI; apply in_app_or in Hu; apply in_app_or in Hv; apply in_or_app; cbn; intuition.
Qed.
Lemma shape_species base r x : generated_shape base r -> In x r -> exists y, In y base /\ ispecie x = ispecie y.
Proof.
  intros (sd & h & t & rhs & _ & HP & _) Hx. apply (Permutation_in _ HP) in Hx. apply in_map_iff in Hx. destruct Hx as (y & <- & Hy).
  exists y. split; [exact Hy|apply to_side_specie].
Qed.
Lemma shape_head base r : generated_shape base r -> exists h t, r = h :: t /\ filter (fun it => (iside it =? -1)%Z) r = h :: tl (lefts r) /\ anti h = false.
Proof.
  intros (sd & h & t & rhs & _ & _ & -> & _ & S1 & S2 & Ha & _). exists h, (t ++ rhs). split; [reflexivity|].
  change (h :: t ++ rhs) with ((h :: t) ++ rhs). destruct (lefts_rights (h :: t) rhs S1 S2) as (E & _). unfold lefts in *. rewrite E. auto.
Qed.
(* the integral of a reaction without matrix elements *)
Definition of_reaction (r : list item) : integral :=
  mkIntegral (match r with h :: _ => ispecie h | [] => mkSpecie 0 EmptyString 0 false end) r [].
Lemma aligned base r r' : distinct_species base -> generated_shape base r -> generated_shape base r' ->
  similar (of_reaction r) (of_reaction r') -> map ispecie r = map ispecie r'.
Proof.
  intros HD G G' (E & PL & PR).
  assert (INJ : forall x y, In x (map ispecie r ++ map ispecie r') -> In y (map ispecie r ++ map ispecie r') -> sid x = sid y -> x = y).
  { intros x y Hx Hy Es. assert (Q : forall z, In z (map ispecie r ++ map ispecie r') -> exists w, In w base /\ z = ispecie w).
    { intros z Hz. apply in_app_or in Hz. destruct Hz as [Hz|Hz]; apply in_map_iff in Hz; destruct Hz as (u & <- & Hu);
        [apply (shape_species base r u G Hu)|apply (shape_species base r' u G' Hu)]. }
    destruct (Q x Hx) as (x' & Ix & ->). destruct (Q y Hy) as (y' & Iy & ->). apply HD; auto. }
  destruct G as (sd & h & t & rhs & _ & _ & -> & _ & S1 & S2 & _ & St & Sr & _). destruct G' as (sd' & h' & t' & rhs' & _ & _ & -> & _ & S1' & S2' & _ & St' & Sr' & _).
  cbn [of_reaction ireaction particle] in E, PL, PR.
  change (h :: t ++ rhs) with ((h :: t) ++ rhs) in *. change (h' :: t' ++ rhs') with ((h' :: t') ++ rhs') in *.
  destruct (lefts_rights _ _ S1 S2) as (EL & ER). destruct (lefts_rights _ _ S1' S2') as (EL' & ER'). rewrite EL, EL' in PL. rewrite ER, ER' in PR.
  assert (Eh : ispecie h = ispecie h') by (apply INJ; auto; apply in_or_app; [left|right]; now left).
  rewrite !map_app. cbn [map]. f_equal.
  - f_equal; [exact Eh|]. apply species_unique.
    + rewrite !map_map. cbn [map] in PL. rewrite Eh in PL. eapply Permutation_cons_inv; eauto.
    + intros x y Hx Hy. apply INJ; rewrite !map_app; cbn [map]; apply in_or_app; apply in_app_or in Hx; apply in_app_or in Hy; cbn; rewrite ?in_app_iff; intuition.
    + apply (species_sorted (-1)); auto. intros x Hx. apply S1. now right.
    + apply (species_sorted (-1)); auto. intros x Hx. apply S1'. now right.
  - apply species_unique.
    + now rewrite !map_map.
    + intros x y Hx Hy. apply INJ; rewrite !map_app; cbn [map]; apply in_or_app; apply in_app_or in Hx; apply in_app_or in Hy; cbn; rewrite ?in_app_iff; intuition.
    + apply (species_sorted 1); auto.
    + apply (species_sorted 1); auto.
Qed.

(* ---------- the complete construction ---------- *)
(* momenta and masses of the base reaction read off the positions of r *)
Definition base_momentum (r : list item) (p : nat -> vec4) (k : nat) : vec4 :=
  match pos_of k 0 r None with Some j => if is_crossed r j then neg (p j) else p j | None => p O end.
Definition base_mass (r : list item) (m : nat -> R) (k : nat) : R := match pos_of k 0 r None with Some j => m j | None => 0 end.
Definition crossed_amplitude (r : list item) (Ms : list mel) (p : nat -> vec4) (m : nat -> R) : R :=
  (-1) ^ crossings r * total Ms (base_momentum r p) (base_mass r m).
Definition proper (M : mel) : Prop := exists o K1 K2, M = M4 o K1 K2 0 /\ Permutation o (seq 0 4).

Lemma neg_neg p : neg (neg p) = p.
Proof. destruct p as [[[a b] c] d]. cbn. now rewrite !Ropp_involutive. Qed.
Lemma apply_all r Ms : Permutation (map index r) (seq 0 4) -> Forall proper Ms ->
  exists ms, traverse (apply_order r) Ms = Ok ms /\ Forall plain ms /\ forall p m, total ms p m = crossed_amplitude r Ms p m.
Proof.
  intros HI. assert (HN : NoDup (map index r)) by (eapply Permutation_NoDup; [symmetry; exact HI|apply seq_NoDup]).
  induction Ms as [|M t IH]; intros HF; cbn [traverse].
  - exists []. split; [reflexivity|]. split; [constructor|]. intros. unfold crossed_amplitude, total. cbn. lra.
  - inversion HF as [|? ? (o & K1 & K2 & -> & HO) H2]; subst. destruct (apply_order_spec r o K1 K2 0 HI HO) as (o' & K2' & -> & HO' & (a & b & c & d & -> & _) & HM).
    cbn [rbind]. destruct (IH H2) as (ms & -> & Hp & HT). cbn [rbind]. eexists. split; [reflexivity|]. split; [constructor; [now exists a, b, c, d, K1, K2'|exact Hp]|].
    intros p m. unfold total in *. cbn [map fold_right]. rewrite HT. unfold crossed_amplitude, total. cbn [map fold_right].
    rewrite (HM (base_momentum r p) (base_mass r m) p m); [ring|].
    intros j it Hj. unfold base_momentum, base_mass. rewrite (pos_of_spec r (index it) 0 j it None HN Hj eq_refl). cbn [Nat.add].
    unfold is_crossed. rewrite Hj. destruct (crossed it); [now rewrite neg_neg|auto].
Qed.
Lemma shape_indices ps fs r : flags_ok ps fs -> generated_shape (base_items ps fs) r -> Permutation (map index r) (seq 0 (length (fst ps) + length (snd ps))).
Proof.
  intros HF (sd & h & t & rhs & _ & HP & _). rewrite (Permutation_map index HP). unfold placed. rewrite map_map.
  rewrite (map_ext _ index) by (intros; apply to_side_index). now rewrite base_index.
Qed.
Lemma init_all ps fs Ms rs : flags_ok ps fs -> (length (fst ps) + length (snd ps) = 4)%nat -> Forall proper Ms ->
  (forall r, In r rs -> generated_shape (base_items ps fs) r) ->
  exists is, traverse (init_integral Ms) rs = Ok (map (fun i => [i]) is) /\ all_plain is /\
  Forall2 (fun r i => header i = header (of_reaction r) /\ forall p m, total (CrossModel.Ms i) p m = crossed_amplitude r Ms p m) rs is.
Proof.
  intros HF H4 HM. induction rs as [|r rs IH]; intros HG; cbn [traverse].
  - exists []. split; [reflexivity|]. split; constructor.
  - pose proof (HG r (or_introl eq_refl)) as G. destruct (shape_head _ _ G) as (h & t & Er & Ef & Ha).
    assert (HI : Permutation (map index r) (seq 0 4)) by (rewrite (shape_indices ps fs r HF G), H4; reflexivity).
    destruct (apply_all r Ms HI HM) as (ms & Et & Hp & HT). unfold init_integral. rewrite Ef, Ha, Et. cbn [rbind].
    destruct IH as (is & Ei & Hpi & HFi); [intros q Hq; apply HG; now right|]. unfold init_integral in Ei. rewrite Ei. cbn [rbind].
    exists (mkIntegral (ispecie h) r ms :: is). split; [reflexivity|]. split; [constructor; auto|]. constructor; [|exact HFi].
    split; [unfold header, of_reaction; cbn; now rewrite Er|exact HT].
Qed.
Lemma concat_singles {A} (l : list A) : concat (map (fun i => [i]) l) = l.
Proof. induction l; cbn; congruence. Qed.

Lemma cross_generating_spec ps fs Ms : flags_ok ps fs -> distinct_species (base_items ps fs) -> (length (fst ps) + length (snd ps) = 4)%nat -> Forall proper Ms ->
  exists rs out, reactions_map ps fs = Ok rs /\ cross_generating ps fs Ms = Ok out /\
  ForallOrdPairs (fun i j => ~ similar i j) out /\
  (forall o, In o out -> exists r, In r rs /\ header o = header (of_reaction r)) /\
  (forall r, In r rs -> exists o, In o out /\ similar (of_reaction r) o /\ map ispecie r = map ispecie (ireaction o)) /\
  forall o, In o out -> forall p m, total (CrossModel.Ms o) p m =
    fold_right Rplus 0 (map (fun r => crossed_amplitude r Ms p m) (filter (fun r => same_integral (of_reaction r) o) rs)).
Proof.
  intros HF HD H4 HM. destruct (reactions_map_spec ps fs HF HD) as (rs & E & _ & _).
  assert (HG : forall r, In r rs -> generated_shape (base_items ps fs) r) by (intros r Hr; eapply reactions_sound; eauto).
  destruct (init_all ps fs Ms rs HF H4 HM HG) as (is & Ei & Hp & HFi). destruct (dedup_spec is Hp) as (out & Ed & _ & HO & Hh & HT).
  exists rs, out. split; [exact E|]. split; [unfold cross_generating; rewrite E; cbn [rbind]; rewrite Ei; cbn [rbind]; now rewrite concat_singles|].
  split; [exact HO|].
  assert (Hsub : forall seen l i, In i (firsts seen l) -> In i l).
  { intros seen l. revert seen. induction l as [|x t IH]; intros seen i; cbn; auto. destruct (existsb _ _); intros H; [right; eauto|]. destruct H as [->|H]; [now left|right; eauto]. }
  assert (Hout : forall o, In o out -> exists r, In r rs /\ header o = header (of_reaction r)).
  { intros o Ho. apply (in_map header) in Ho. rewrite Hh in Ho. apply in_map_iff in Ho. destruct Ho as (i & Eh & Hi). apply Hsub in Hi.
    apply In_nth_error in Hi. destruct Hi as (k & Hk). destruct (nth_error rs k) as [r|] eqn:Er.
    - assert (Q : forall (a : list (list item)) b k r i, Forall2 (fun r i => header i = header (of_reaction r) /\ forall p m, total (CrossModel.Ms i) p m = crossed_amplitude r Ms p m) a b -> nth_error a k = Some r -> nth_error b k = Some i -> header i = header (of_reaction r)).
      { intros a b k0 r0 i0 HF2. revert k0. induction HF2 as [|x y a b (Hxy & _) HF2 IH]; intros [|k0] X Y; cbn in X, Y; try discriminate; [congruence|eauto]. }
      exists r. split; [eapply nth_error_In; eauto|]. rewrite <- Eh. eapply Q; eauto.
    - apply nth_error_None in Er. assert (k < length is)%nat by (apply nth_error_Some; congruence). rewrite <- (Forall2_len _ _ _ HFi) in *. lia. }
  split; [exact Hout|].
  split.
  - intros r Hr. assert (exists i, In i is /\ header i = header (of_reaction r)) as (i & Hi & Eh).
    { clear -HFi Hr. induction HFi as [|x y a b (Hxy & _) HF2 IH]; [destruct Hr|]. destruct Hr as [->|Hr]; [exists y; split; [now left|exact Hxy]|].
      destruct (IH Hr) as (i & Hi & Eh). exists i. split; [now right|exact Eh]. }
    destruct (firsts_represents is i [] Hi) as [(o & [] & _)|(o' & Ho' & So)].
    apply (in_map header) in Ho'. rewrite <- Hh in Ho'. apply in_map_iff in Ho'. destruct Ho' as (o & Eo & Ho).
    assert (S1 : similar (of_reaction r) o) by (eapply similar_header; [| |exact So]; [exact Eh|now symmetry]).
    exists o. split; [exact Ho|]. split; [exact S1|].
    destruct (Hout o Ho) as (r' & Hr' & Er'). unfold header in Er'. injection Er' as Er1 Er2. cbn [of_reaction ireaction] in Er2. rewrite Er2.
    apply (aligned (base_items ps fs)); auto. eapply similar_header; [reflexivity| |exact S1]. unfold header. cbn [of_reaction ireaction particle]. rewrite Er1, Er2. reflexivity.
  - intros o Ho p m. rewrite (HT o Ho p m). unfold class_total. clear -HFi. induction HFi as [|r i a b (Hh & Ht) HF2 IH]; [reflexivity|]. cbn [filter].
    replace (same_integral (of_reaction r) o) with (same_integral i o); [destruct (same_integral i o); cbn [map fold_right]; rewrite ?Ht, IH; reflexivity|].
    unfold same_integral. unfold header in Hh. injection Hh as -> ->. reflexivity.
Qed.

(* ---------- constants ---------- *)
Lemma three_particle_constants Ks : forall K, 0 < K -> Forall (fun K => 0 < K) Ks ->
  merge_Ms [M3 K] (map M3 Ks) = Ok [M3 (fold_left Rplus Ks K)].
Proof.
  intros K HK HF. unfold merge_Ms. enough (G : rfold merge_step ([M3 K], []) (map M3 Ks) = Ok ([M3 (fold_left Rplus Ks K)], [])) by (rewrite G; reflexivity).
  revert K HK. induction HF as [|K' Ks H HF IH]; intros K HK; [reflexivity|]. cbn [map rfold merge_step reduce K_of].
  destruct (Req_EM_T K 0); [lra|]. cbn [iadd rbind]. rewrite IH by lra. reflexivity.
Qed.

(* ---------- orders ---------- *)
Lemma ninsert_perm x l : Permutation (ninsert x l) (x :: l).
Proof. induction l as [|y t IH]; [reflexivity|]. cbn [ninsert]. destruct (y <? x)%nat; [|reflexivity]. rewrite IH. apply perm_swap. Qed.
Lemma nsorted_perm l : Permutation (nsorted l) l.
Proof. induction l as [|x t IH]; cbn; [constructor|]. rewrite ninsert_perm. now constructor. Qed.
Lemma ninsert_sorted x l : Sorted le l -> Sorted le (ninsert x l).
Proof.
  intros H. induction H as [|y t H IH HR]; [repeat constructor|]. cbn [ninsert]. destruct (Nat.ltb_spec y x) as [L|L].
  - constructor; [exact IH|]. destruct t as [|z t]; cbn [ninsert] in *; [constructor; lia|]. inversion HR; subst. destruct (z <? x)%nat; constructor; lia.
  - constructor; [constructor; auto|]. constructor. lia.
Qed.
Lemma nsorted_sorted l : Sorted le (nsorted l).
Proof. induction l; cbn; [constructor|]. now apply ninsert_sorted. Qed.
Lemma sorted_le_unique l l' : Permutation l l' -> Sorted le l -> Sorted le l' -> l = l'.
Proof.
  intros HP H H'. apply Sorted_StronglySorted in H; [|intros a b c; lia]. apply Sorted_StronglySorted in H'; [|intros a b c; lia].
  revert l' HP H'. induction H as [|x t H IH HF]; intros l' HP H'; [apply Permutation_nil in HP; now subst|].
  destruct l' as [|y t']; [apply Permutation_sym, Permutation_nil in HP; discriminate|]. inversion H' as [|? ? H1 H2]; subst. rewrite Forall_forall in HF, H2.
  assert (E : x = y).
  { assert (Ix : In x (y :: t')) by (eapply Permutation_in; [exact HP|now left]). assert (Iy : In y (x :: t)) by (eapply Permutation_in; [symmetry; exact HP|now left]).
    destruct Ix as [->|Ix]; auto. destruct Iy as [->|Iy]; auto. apply Nat.le_antisymm; auto. }
  subst y. f_equal. apply IH; auto. eapply Permutation_cons_inv; eauto.
Qed.
Lemma store_perm o : Permutation (store_order o) o.
Proof. unfold store_order. rewrite <- (firstn_skipn 2 o) at 3. apply Permutation_app; apply nsorted_perm. Qed.
Lemma has_dup_spec l : has_dup l = true <-> ~ NoDup l.
Proof.
  induction l as [|x t IH]; cbn.
  - split; [discriminate|]. intros H. exfalso. apply H. constructor.
  - rewrite Bool.orb_true_iff, IH, existsb_exists. split.
    + intros [(y & Hy & E)|H] N; inversion N; subst; [apply Nat.eqb_eq in E; subst; contradiction|contradiction].
    + intros H. destruct (in_dec Nat.eq_dec x t) as [I|I]; [left; exists x; split; [exact I|apply Nat.eqb_refl]|]. right. intros N. apply H. now constructor.
Qed.
Lemma new_M4_spec o K1 K2 K :
  (~ NoDup o -> new_M4 (Some o) K1 K2 K = Raise GenericException) /\
  (NoDup o -> exists a b, new_M4 (Some o) K1 K2 K = Ok (M4 (a ++ b) K1 K2 K) /\ Permutation a (firstn 2 o) /\ Permutation b (skipn 2 o) /\ Sorted le a /\ Sorted le b).
Proof.
  unfold new_M4. split.
  - intros H. assert (has_dup (store_order o) = true) as ->; [|reflexivity]. apply has_dup_spec. intros N. apply H. eapply Permutation_NoDup; [apply store_perm|exact N].
  - intros H. assert (has_dup (store_order o) = false) as ->.
    { apply Bool.not_true_iff_false. rewrite has_dup_spec. intros N. apply N. eapply Permutation_NoDup; [symmetry; apply store_perm|exact H]. }
    exists (nsorted (firstn 2 o)), (nsorted (skipn 2 o)). split; [reflexivity|]. repeat split; try apply nsorted_perm; apply nsorted_sorted.
Qed.
Lemma new_M4_pairs o o' K1 K2 K : Permutation (firstn 2 o) (firstn 2 o') -> Permutation (skipn 2 o) (skipn 2 o') -> new_M4 (Some o) K1 K2 K = new_M4 (Some o') K1 K2 K.
Proof.
  intros P Q. unfold new_M4, store_order.
  assert (G : forall a b, Permutation a b -> nsorted a = nsorted b).
  { intros a b HP. apply sorted_le_unique; try apply nsorted_sorted. rewrite !nsorted_perm. exact HP. }
  now rewrite (G _ _ P), (G _ _ Q).
Qed.
