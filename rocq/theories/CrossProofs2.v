(* proofs about CrossModel: soundness, completeness, charges, matrix elements *)
From Coq Require Import Permutation Sorted Reals Lra.
From Verif Require Import Base CrossModel CrossProofs.
From Verif Require ReactionsProofs.

Definition lefts (r : list item) := filter (fun it => (iside it =? -1)%Z) r.
Definition rights (r : list item) := filter (fun it => (iside it =? 1)%Z) r.
(* the base reaction with every particle moved to the side `sd` says *)
Definition placed (base : list item) (sd : nat -> Z) : list item := map (fun it => to_side (sd (index it)) it) base.
Definition sides (sd : nat -> Z) : Prop := forall k, sd k = (-1)%Z \/ sd k = 1%Z.
(* a lone particle that is not heavier than all the others together *)
Definition too_light (one others : list item) : Prop := exists x, one = [x] /\ (smass (ispecie x) <= mass_sum others)%Z.

Lemma nodup_app_l {A} (a b : list A) : NoDup (a ++ b) -> NoDup a.
Proof. induction a as [|x t IH]; cbn; intros H; [constructor|]. inversion H; subst. constructor; [|auto]. intros I. apply H2. apply in_or_app; auto. Qed.
Lemma nodup_app_r {A} (a b : list A) : NoDup (a ++ b) -> NoDup b.
Proof. induction a as [|x t IH]; cbn; intros H; [exact H|]. inversion H; auto. Qed.
Lemma impossible_spec lhs rhs : impossible lhs rhs = true <-> too_light lhs rhs \/ too_light rhs lhs.
Proof.
  assert (G : forall a b, match a with [x] => (smass (ispecie x) <=? mass_sum b)%Z | _ => false end = true <-> too_light a b).
  { intros a b. unfold too_light. destruct a as [|x [|y t]].
    - split; [discriminate|]. intros (x & E & _). discriminate.
    - rewrite Z.leb_le. split; [intros H; exists x; auto|]. intros (z & E & H). injection E as <-. exact H.
    - split; [discriminate|]. intros (z & E & _). discriminate. }
  unfold impossible. rewrite Bool.orb_true_iff, !G. reflexivity.
Qed.
Lemma mass_sum_perm a b : Permutation a b -> mass_sum a = mass_sum b.
Proof. intros H. unfold mass_sum. induction H; cbn in *; try lia; congruence. Qed.
Lemma too_light_perm a a' b b' : Permutation a a' -> Permutation b b' -> too_light a b -> too_light a' b'.
Proof.
  intros HA HB (x & -> & H). apply Permutation_length_1_inv in HA. subst a'. exists x. split; [reflexivity|].
  now rewrite <- (mass_sum_perm b b' HB).
Qed.
Lemma filter_perm {A} (f : A -> bool) a b : Permutation a b -> Permutation (filter f a) (filter f b).
Proof.
  intros H. induction H; cbn; auto.
  - destruct (f x); auto.
  - destruct (f y), (f x); auto. apply perm_swap.
  - eapply perm_trans; eauto.
Qed.

Lemma outcome_shape f L Rr r : two_sided (f :: L ++ Rr) -> outcome f L Rr = Some r ->
  r = to_side (-1) f :: sorted (map (to_side (-1)) L) ++ sorted (map (to_side 1) Rr) /\ anti (to_side (-1) f) = false /\
  ~ too_light (to_side (-1) f :: sorted (map (to_side (-1)) L)) (sorted (map (to_side 1) Rr)) /\
  ~ too_light (sorted (map (to_side 1) Rr)) (to_side (-1) f :: sorted (map (to_side (-1)) L)).
Proof.
  intros H2. unfold outcome. destruct (anti (to_side (-1) f)) eqn:Ea; [discriminate|].
  destruct (impossible _ _) eqn:Ei; [discriminate|]. intros E. injection E as <-.
  split; [reflexivity|]. split; [reflexivity|]. split; intros H; (assert (impossible (to_side (-1) f :: sorted (map (to_side (-1)) L)) (sorted (map (to_side 1) Rr)) = true) by (apply impossible_spec; auto)); congruence.
Qed.
Lemma shape_sides f L Rr : two_sided (f :: L ++ Rr) ->
  (forall x, In x (to_side (-1) f :: sorted (map (to_side (-1)) L)) -> iside x = (-1)%Z) /\
  (forall x, In x (sorted (map (to_side 1) Rr)) -> iside x = 1%Z).
Proof.
  intros H2. split.
  - intros x [<-|Hx].
    + apply to_side_side; auto. apply H2. now left.
    + apply (Permutation_in _ (sorted_perm _)) in Hx. apply in_map_iff in Hx. destruct Hx as (y & <- & Hy).
      apply to_side_side; auto. apply H2. right. apply in_or_app; auto.
  - intros x Hx. apply (Permutation_in _ (sorted_perm _)) in Hx. apply in_map_iff in Hx. destruct Hx as (y & <- & Hy).
    apply to_side_side; auto. apply H2. right. apply in_or_app; auto.
Qed.
Lemma lefts_rights a b : (forall x, In x a -> iside x = (-1)%Z) -> (forall x, In x b -> iside x = 1%Z) -> lefts (a ++ b) = a /\ rights (a ++ b) = b.
Proof.
  intros HA HB. unfold lefts, rights. rewrite !filter_app.
  rewrite (filter_all _ a) by (intros x Hx; now rewrite (HA x Hx)). rewrite (filter_none _ b) by (intros x Hx; now rewrite (HB x Hx)).
  rewrite (filter_none _ a) by (intros x Hx; now rewrite (HA x Hx)). rewrite (filter_all _ b) by (intros x Hx; now rewrite (HB x Hx)).
  now rewrite app_nil_r.
Qed.

(* the shape of a generated reaction *)
Definition generated_shape (base : list item) (r : list item) : Prop :=
  exists sd h t rhs, sides sd /\ Permutation r (placed base sd) /\ r = h :: t ++ rhs /\ rhs <> [] /\
  (forall x, In x (h :: t) -> iside x = (-1)%Z) /\ (forall x, In x rhs -> iside x = 1%Z) /\
  anti h = false /\ StronglySorted before t /\ StronglySorted before rhs /\
  ~ too_light (h :: t) rhs /\ ~ too_light rhs (h :: t).

Lemma placed_split base sd f L Rr : Permutation base (f :: L ++ Rr) -> sd (index f) = (-1)%Z -> (forall x, In x L -> sd (index x) = (-1)%Z) ->
  (forall x, In x Rr -> sd (index x) = 1%Z) ->
  Permutation (placed base sd) (to_side (-1) f :: map (to_side (-1)) L ++ map (to_side 1) Rr).
Proof.
  intros HP Hf HL HR. unfold placed. rewrite (Permutation_map _ HP). cbn [map]. rewrite map_app, Hf.
  rewrite (map_ext_in _ (to_side (-1)) L) by (intros x Hx; now rewrite HL). rewrite (map_ext_in _ (to_side 1) Rr) by (intros x Hx; now rewrite HR).
  reflexivity.
Qed.

Lemma outcome_sound ps fs f L Rr r : flags_ok ps fs -> distinct_species (base_items ps fs) ->
  Permutation (base_items ps fs) (f :: L ++ Rr) -> Rr <> [] -> outcome f L Rr = Some r -> generated_shape (base_items ps fs) r.
Proof.
  intros HF HD HP HR Ho. set (base := base_items ps fs) in *.
  assert (H2 : two_sided (f :: L ++ Rr)).
  { intros it Hit. apply (base_two_sided ps fs). eapply Permutation_in; [symmetry; exact HP|exact Hit]. }
  assert (HN : NoDup (map index (f :: L ++ Rr))).
  { eapply Permutation_NoDup; [apply Permutation_map; exact HP|]. unfold base. rewrite base_index by auto. apply seq_NoDup. }
  destruct (outcome_shape f L Rr r H2 Ho) as (-> & Ha & T1 & T2). destruct (shape_sides f L Rr H2) as (S1 & S2).
  set (sd := fun k => if in_dec Nat.eq_dec k (map index (f :: L)) then (-1)%Z else 1%Z).
  exists sd, (to_side (-1) f), (sorted (map (to_side (-1)) L)), (sorted (map (to_side 1) Rr)).
  assert (Hidx : forall s l, map index (map (to_side s) l) = map index l).
  { intros s l. rewrite map_map. apply map_ext. intros x. apply to_side_index. }
  assert (Hin : forall s l, incl l (f :: L ++ Rr) -> (s = -1 \/ s = 1)%Z -> incl (map (to_side s) l) (reachable_items base)).
  { intros s l Hl Hs z Hz. apply in_map_iff in Hz. destruct Hz as (w & <- & Hw). unfold reachable_items. apply in_or_app.
    assert (In w base) by (eapply Permutation_in; [symmetry; exact HP|now apply Hl]). destruct Hs as [-> | ->]; [left|right]; now apply in_map. }
  cbn [map] in HN. rewrite map_app in HN. inversion HN as [|? ? N1 N2]; subst.
  pose proof (nodup_app_l _ _ N2) as NL. pose proof (nodup_app_r _ _ N2) as NR.
  split; [intros k; unfold sd; destruct (in_dec _ _ _); auto|]. split.
  { rewrite (placed_split base sd f L Rr HP).
    - constructor. apply Permutation_app; apply sorted_perm.
    - unfold sd. destruct (in_dec _ _ _) as [|N]; [reflexivity|]. exfalso. apply N. now left.
    - intros x Hx. unfold sd. destruct (in_dec _ _ _) as [|N]; [reflexivity|]. exfalso. apply N. right. now apply in_map.
    - intros x Hx. unfold sd. destruct (in_dec _ _ _) as [I|]; [|reflexivity]. exfalso. cbn in I. destruct I as [I|I].
      + apply N1. apply in_or_app. right. rewrite I. now apply in_map.
      + clear -N2 I Hx. induction L as [|y t IH]; cbn in *; [contradiction|]. inversion N2; subst. destruct I as [I|I]; [|auto].
        apply H1. apply in_or_app. right. rewrite I. now apply in_map. }
  split; [reflexivity|]. split.
  { intros E. apply (f_equal (@length item)) in E. rewrite (Permutation_length (sorted_perm _)), map_length in E. destruct Rr; [contradiction|discriminate]. }
  split; [exact S1|]. split; [exact S2|]. split; [exact Ha|].
  split. { apply (sorted_sorted (reachable_items base)); [now apply distinct_reachable| |now rewrite Hidx]. apply Hin; auto. intros z Hz. right. apply in_or_app; auto. }
  split. { apply (sorted_sorted (reachable_items base)); [now apply distinct_reachable| |now rewrite Hidx]. apply Hin; auto. intros z Hz. right. apply in_or_app; auto. }
  auto.
Qed.

(* exactly the possible ones, each once *)
Lemma reactions_sound ps fs rs r : flags_ok ps fs -> distinct_species (base_items ps fs) -> reactions_map ps fs = Ok rs -> In r rs ->
  generated_shape (base_items ps fs) r.
Proof.
  intros HF HD E Hr. destruct (reactions_map_spec ps fs HF HD) as (rs' & E' & _ & HS). rewrite E in E'. injection E' as <-.
  apply HS in Hr. destruct Hr as (f & L & Rr & HP & HR & Ho). eapply outcome_sound; eauto.
Qed.
Lemma partition_perm {A} (f : A -> bool) l : Permutation l (filter f l ++ filter (fun x => negb (f x)) l).
Proof.
  induction l as [|x t IH]; cbn; [constructor|]. destruct (f x); cbn; [now constructor|].
  rewrite IH at 1. apply Permutation_middle.
Qed.
Lemma reactions_complete ps fs rs sd f : flags_ok ps fs -> distinct_species (base_items ps fs) -> reactions_map ps fs = Ok rs ->
  sides sd -> In f (base_items ps fs) -> sd (index f) = (-1)%Z -> (exists g, In g (base_items ps fs) /\ sd (index g) = 1%Z) ->
  anti (to_side (-1) f) = false ->
  ~ too_light (lefts (placed (base_items ps fs) sd)) (rights (placed (base_items ps fs) sd)) ->
  ~ too_light (rights (placed (base_items ps fs) sd)) (lefts (placed (base_items ps fs) sd)) ->
  exists r, In r rs /\ hd_error r = Some (to_side (-1) f) /\ Permutation r (placed (base_items ps fs) sd).
Proof.
  intros HF HD E Hsd If Hf (g & Ig & Hg) Ha T1 T2. destruct (reactions_map_spec ps fs HF HD) as (rs' & E' & _ & HS). rewrite E in E'. injection E' as <-.
  set (base := base_items ps fs) in *.
  destruct (in_split f base If) as (l1 & l2 & EB). set (rest := l1 ++ l2).
  assert (HP0 : Permutation base (f :: rest)) by (rewrite EB; symmetry; apply Permutation_middle).
  set (L := filter (fun it => (sd (index it) =? -1)%Z) rest). set (Rr := filter (fun it => negb (sd (index it) =? -1)%Z) rest).
  assert (HP : Permutation base (f :: L ++ Rr)) by (rewrite HP0; constructor; apply partition_perm).
  assert (HL : forall x, In x L -> sd (index x) = (-1)%Z) by (intros x Hx; apply filter_In in Hx; destruct Hx as (_ & Hx); now apply Z.eqb_eq in Hx).
  assert (HR : forall x, In x Rr -> sd (index x) = 1%Z).
  { intros x Hx. apply filter_In in Hx. destruct Hx as (_ & Hx). apply Bool.negb_true_iff, Z.eqb_neq in Hx. destruct (Hsd (index x)); congruence. }
  assert (NR : Rr <> []).
  { intros ER. assert (I : In g (f :: L ++ Rr)) by (eapply Permutation_in; eauto). rewrite ER, app_nil_r in I. destruct I as [<-|I]; [congruence|]. apply HL in I. congruence. }
  assert (H2 : two_sided (f :: L ++ Rr)).
  { intros it Hit. apply (base_two_sided ps fs). eapply Permutation_in; [symmetry; exact HP|exact Hit]. }
  pose proof (placed_split base sd f L Rr HP Hf HL HR) as HPl. destruct (shape_sides f L Rr H2) as (S1 & S2).
  assert (HPl2 : Permutation (placed base sd) ((to_side (-1) f :: sorted (map (to_side (-1)) L)) ++ sorted (map (to_side 1) Rr))).
  { rewrite HPl. cbn. constructor. apply Permutation_app; symmetry; apply sorted_perm. }
  destruct (lefts_rights _ _ S1 S2) as (EL & ER).
  assert (PL : Permutation (lefts (placed base sd)) (to_side (-1) f :: sorted (map (to_side (-1)) L))) by (rewrite <- EL; now apply filter_perm).
  assert (PR : Permutation (rights (placed base sd)) (sorted (map (to_side 1) Rr))) by (rewrite <- ER; now apply filter_perm).
  exists ((to_side (-1) f :: sorted (map (to_side (-1)) L)) ++ sorted (map (to_side 1) Rr)). split; [|split; [reflexivity|now symmetry]].
  apply HS. exists f, L, Rr. split; [exact HP|]. split; [exact NR|]. unfold outcome. rewrite Ha.
  destruct (impossible _ _) eqn:Ei; [|reflexivity]. exfalso. apply impossible_spec in Ei. destruct Ei as [Ei|Ei].
  - apply T1. eapply too_light_perm; [symmetry; exact PL|symmetry; exact PR|exact Ei].
  - apply T2. eapply too_light_perm; [symmetry; exact PR|symmetry; exact PL|exact Ei].
Qed.
Lemma shape_unique base r r' : generated_shape base r -> generated_shape base r' -> hd_error r = hd_error r' -> Permutation r r' -> r = r'.
Proof.
  intros (sd & h & t & rhs & _ & _ & -> & _ & S1 & S2 & _ & St & Sr & _) (sd' & h' & t' & rhs' & _ & _ & -> & _ & S1' & S2' & _ & St' & Sr' & _) Hh HP.
  cbn in Hh. injection Hh as ->.
  destruct (lefts_rights (h' :: t) rhs S1 S2) as (EL & ER). destruct (lefts_rights (h' :: t') rhs' S1' S2') as (EL' & ER').
  assert (PL : Permutation (h' :: t) (h' :: t')) by (rewrite <- EL, <- EL'; now apply filter_perm).
  assert (PR : Permutation rhs rhs') by (rewrite <- ER, <- ER'; now apply filter_perm).
  f_equal. f_equal; apply sorted_unique; auto. eapply Permutation_cons_inv; eauto.
Qed.

(* ---------- additive charges ---------- *)
Definition side_charge (q : specie -> Z) (l : list item) : Z :=
  fold_right Z.add 0%Z (map (fun it => if anti it then (- q (ispecie it))%Z else q (ispecie it)) l).
Definition conserved (q : specie -> Z) (r : list item) : Prop := side_charge q (lefts r) = side_charge q (rights r).

Definition signed (q : specie -> Z) (it : item) : Z := (iside it * (if anti it then - q (ispecie it) else q (ispecie it)))%Z.
Definition imbalance (q : specie -> Z) (r : list item) : Z := fold_right Z.add 0%Z (map (signed q) r).
Lemma imbalance_sides q r : two_sided r -> imbalance q r = (side_charge q (rights r) - side_charge q (lefts r))%Z.
Proof.
  intros H. unfold imbalance, side_charge, lefts, rights. induction r as [|x t IH]; [reflexivity|].
  assert (Ht : two_sided t) by (intros y Hy; apply H; now right). specialize (IH Ht).
  cbn [map fold_right filter]. unfold signed at 1. destruct (H x (or_introl eq_refl)) as [-> | ->]; cbn [Z.eqb Pos.eqb map fold_right]; rewrite IH; lia.
Qed.
Lemma imbalance_perm q a b : Permutation a b -> imbalance q a = imbalance q b.
Proof. intros H. unfold imbalance. induction H; cbn in *; try lia; congruence. Qed.
Lemma signed_to_side q s it : (s = -1 \/ s = 1)%Z -> (iside it = -1 \/ iside it = 1)%Z -> (majorana (ispecie it) = true -> q (ispecie it) = 0%Z) ->
  signed q (to_side s it) = signed q it.
Proof.
  intros Hs Hi Hm. unfold to_side. destruct (Z.eqb_spec (iside it) s); [reflexivity|]. unfold signed. cbn [cross_particle iside ispecie anti].
  destruct (majorana (ispecie it)).
  - rewrite (Hm eq_refl). destruct (anti it); lia.
  - destruct (anti it); cbn [negb]; lia.
Qed.
Lemma imbalance_placed q base sd : two_sided base -> sides sd -> (forall it, In it base -> majorana (ispecie it) = true -> q (ispecie it) = 0%Z) ->
  imbalance q (placed base sd) = imbalance q base.
Proof.
  intros H2 Hs Hm. unfold imbalance, placed. rewrite map_map. f_equal. apply map_ext_in. intros it Hit.
  apply signed_to_side; [apply Hs|now apply H2|now apply Hm].
Qed.
Lemma placed_two_sided base sd : two_sided base -> sides sd -> two_sided (placed base sd).
Proof.
  intros H2 Hs it Hit. unfold placed in Hit. apply in_map_iff in Hit. destruct Hit as (x & <- & Hx).
  rewrite to_side_side; auto.
Qed.
Lemma shape_conserves base q r : two_sided base -> generated_shape base r -> (forall it, In it base -> majorana (ispecie it) = true -> q (ispecie it) = 0%Z) ->
  (side_charge q (rights r) - side_charge q (lefts r) = side_charge q (rights base) - side_charge q (lefts base))%Z.
Proof.
  intros H2 (sd & h & t & rhs & Hs & HP & _) Hm.
  assert (H2r : two_sided r) by (intros it Hit; apply (placed_two_sided base sd H2 Hs); eapply Permutation_in; eauto).
  rewrite <- !imbalance_sides by auto. rewrite (imbalance_perm q r _ HP). now apply imbalance_placed.
Qed.

(* ---------- matrix elements ---------- *)
Open Scope R_scope.
Definition vec4 : Type := R * R * R * R.
Definition dot (p q : vec4) : R :=
  let '(p0, p1, p2, p3) := p in let '(q0, q1, q2, q3) := q in p0 * q0 - p1 * q1 - p2 * q2 - p3 * q3.
Definition neg (p : vec4) : vec4 := let '(p0, p1, p2, p3) := p in (- p0, - p1, - p2, - p3).
(* K1 (p_i.p_j)(p_k.p_l) + K2 m_i m_j (p_k.p_l), four_particle/__init__.py:20-26 *)
Definition Msq (M : mel) (p : nat -> vec4) (m : nat -> R) : R :=
  match M with
  | M4 [i; j; k; l] K1 K2 _ => K1 * dot (p i) (p j) * dot (p k) (p l) + K2 * m i * m j * dot (p k) (p l)
  | _ => 0
  end.
Definition sgn_of (b : bool) : R := if b then -1 else 1.
Definition crossings (r : list item) : nat := length (filter crossed r).

Lemma dot_sym p q : dot p q = dot q p.
Proof. destruct p as [[[p0 p1] p2] p3], q as [[[q0 q1] q2] q3]. cbn. ring. Qed.
Lemma dot_neg (a b : bool) p q : dot (if a then neg p else p) (if b then neg q else q) = sgn_of a * sgn_of b * dot p q.
Proof. destruct p as [[[p0 p1] p2] p3], q as [[[q0 q1] q2] q3]. destruct a, b; cbn; ring. Qed.

Lemma pos_of_absent v r : forall j found, ~ In v (map index r) -> pos_of v j r found = found.
Proof.
  induction r as [|x t IH]; intros j found H; cbn in *; auto. rewrite IH by tauto.
  destruct (Nat.eqb_spec (index x) v); [tauto|reflexivity].
Qed.
Lemma pos_of_spec r : forall v j k it found, NoDup (map index r) -> nth_error r k = Some it -> index it = v -> pos_of v j r found = Some (j + k)%nat.
Proof.
  induction r as [|x t IH]; intros v j k it found HN Hk Hv; [destruct k; discriminate|]. cbn in HN. inversion HN as [|? ? N1 N2]; subst.
  destruct k as [|k]; cbn in Hk |- *.
  - injection Hk as ->. rewrite Nat.eqb_refl, pos_of_absent by auto. f_equal. lia.
  - destruct (Nat.eqb_spec (index x) (index it)) as [E|_].
    + exfalso. apply N1. rewrite E. apply in_map. eapply nth_error_In; eauto.
    + rewrite (IH (index it) (S j) k it found N2 Hk eq_refl). f_equal. lia.
Qed.
Lemma pos_exists r v : NoDup (map index r) -> In v (map index r) -> exists k it, nth_error r k = Some it /\ index it = v /\ pos_of v 0 r None = Some k.
Proof.
  intros HN Hv. apply in_map_iff in Hv. destruct Hv as (it & Hi & Hit). apply In_nth_error in Hit. destruct Hit as (k & Hk).
  exists k, it. split; [exact Hk|]. split; [exact Hi|]. now rewrite (pos_of_spec r v 0 k it None HN Hk Hi).
Qed.

Lemma nsorted2 a b : nsorted [a; b] = [a; b] \/ nsorted [a; b] = [b; a].
Proof. unfold nsorted. cbn [fold_right ninsert]. destruct (b <? a)%nat; auto. Qed.
Lemma nsorted2_le a b : exists x y, nsorted [a; b] = [x; y] /\ (x <= y)%nat /\ Permutation [a; b] [x; y].
Proof.
  unfold nsorted. cbn [fold_right ninsert]. destruct (Nat.ltb_spec b a); [exists b, a|exists a, b]; (split; [reflexivity|]); (split; [lia|]); [apply perm_swap|reflexivity].
Qed.
Lemma store_order4 a b c d : exists a' b' c' d', store_order [a; b; c; d] = [a'; b'; c'; d'] /\ (a' <= b')%nat /\ (c' <= d')%nat /\
  Permutation [a; b] [a'; b'] /\ Permutation [c; d] [c'; d'].
Proof.
  unfold store_order. cbn [firstn skipn]. destruct (nsorted2_le a b) as (a' & b' & -> & H1 & P1). destruct (nsorted2_le c d) as (c' & d' & -> & H2 & P2).
  exists a', b', c', d'. auto.
Qed.
Lemma Msq_store a b c d K1 K2 K p m : Msq (M4 (store_order [a; b; c; d]) K1 K2 K) p m = Msq (M4 [a; b; c; d] K1 K2 K) p m.
Proof.
  unfold store_order. cbn [firstn skipn].
  destruct (nsorted2 a b) as [-> | ->], (nsorted2 c d) as [-> | ->]; cbn [app Msq]; rewrite ?(dot_sym (p b) (p a)), ?(dot_sym (p d) (p c)); ring.
Qed.

Lemma perm_prod (l l' : list R) : Permutation l l' -> fold_right Rmult 1 l = fold_right Rmult 1 l'.
Proof. intros H. induction H; cbn; auto; try (rewrite IHPermutation; reflexivity); [ring|congruence]. Qed.
Lemma crossings_prod r : (-1) ^ crossings r = fold_right Rmult 1 (map (fun it => sgn_of (crossed it)) r).
Proof.
  unfold crossings. induction r as [|x t IH]; [reflexivity|]. cbn [filter map fold_right]. destruct (crossed x); cbn [length pow sgn_of]; rewrite <- IH; ring.
Qed.
Lemma length4 {A} (l : list A) : length l = 4%nat -> exists a b c d, l = [a; b; c; d].
Proof. destruct l as [|a [|b [|c [|d [|e l]]]]]; try discriminate. intros _. now exists a, b, c, d. Qed.

Lemma apply_order_spec r o K1 K2 K : Permutation (map index r) (seq 0 4) -> Permutation o (seq 0 4) ->
  exists o' K2', apply_order r (M4 o K1 K2 K) = Ok (M4 o' K1 K2' K) /\ Permutation o' (seq 0 4) /\
  (exists a b c d, o' = [a; b; c; d] /\ (a < b)%nat /\ (c < d)%nat) /\
  forall p m p' m', (forall j it, nth_error r j = Some it -> p' j = (if crossed it then neg (p (index it)) else p (index it)) /\ m' j = m (index it)) ->
  Msq (M4 o' K1 K2' K) p' m' = (-1) ^ crossings r * Msq (M4 o K1 K2 K) p m.
Proof.
  intros HI HO. assert (HN : NoDup (map index r)) by (eapply Permutation_NoDup; [symmetry; exact HI|apply seq_NoDup]).
  destruct (length4 o) as (i & j & k & l & ->); [rewrite (Permutation_length HO); reflexivity|].
  assert (HNo : NoDup [i; j; k; l]) by (eapply Permutation_NoDup; [symmetry; exact HO|apply seq_NoDup]).
  assert (G : forall v, In v [i; j; k; l] -> exists x it, nth_error r x = Some it /\ index it = v /\ pos_of v 0 r None = Some x).
  { intros v Hv. apply pos_exists; auto. eapply Permutation_in; [symmetry; exact HI|]. eapply Permutation_in; eauto. }
  destruct (G i) as (a & ia & Ea & Ia & Pa); [cbn; auto|]. destruct (G j) as (b & ib & Eb & Ib & Pb); [cbn; auto|].
  destruct (G k) as (c & ic & Ec & Ic & Pc); [cbn; auto|]. destruct (G l) as (d & id & Ed & Id & Pd); [cbn; auto|].
  assert (HLr : length r = 4%nat) by (rewrite <- (map_length index), (Permutation_length HI); reflexivity).
  assert (ND : NoDup [a; b; c; d]).
  { assert (D : forall v w x y (X : nth_error r x = Some v) (Y : nth_error r y = Some w), index v <> index w -> x <> y) by (intros; intros ->; congruence).
    inversion HNo as [|? ? N1 N2]; subst. inversion N2 as [|? ? N3 N4]; subst. inversion N4 as [|? ? N5 N6]; subst. cbn in N1, N3, N5.
    assert (a <> b) by (eapply (D ia ib); eauto; intuition congruence). assert (a <> c) by (eapply (D ia ic); eauto; intuition congruence).
    assert (a <> d) by (eapply (D ia id); eauto; intuition congruence). assert (b <> c) by (eapply (D ib ic); eauto; intuition congruence).
    assert (b <> d) by (eapply (D ib id); eauto; intuition congruence). assert (c <> d) by (eapply (D ic id); eauto; intuition congruence).
    constructor; [cbn; intuition|]. constructor; [cbn; intuition|]. constructor; [cbn; intuition|]. constructor; [cbn; intuition|constructor]. }
  assert (PP : Permutation [a; b; c; d] (seq 0 4)).
  { apply NoDup_Permutation_bis; [exact ND|cbn; lia|]. intros x Hx. apply in_seq.
    assert (exists it, nth_error r x = Some it) as (it & E) by (cbn in Hx; destruct Hx as [<-|[<-|[<-|[<-|[]]]]]; eauto).
    assert (x < length r)%nat by (apply nth_error_Some; congruence). lia. }
  cbn [apply_order map_order]. rewrite Pa, Pb, Pc, Pd. cbn [rbind].
  set (K2' := if xorb (is_crossed r a) (is_crossed r b) then K2 * -1 else K2).
  destruct (store_order4 a b c d) as (a' & b' & c' & d' & ES & L1 & L2 & Q1 & Q2).
  exists (store_order [a; b; c; d]), K2'. split; [reflexivity|]. split.
  { rewrite ES. rewrite <- PP. change [a'; b'; c'; d'] with ([a'; b'] ++ [c'; d']). rewrite <- Q1, <- Q2. reflexivity. }
  split.
  { exists a', b', c', d'. split; [exact ES|].
    assert (NoDup ([a'; b'] ++ [c'; d'])) as NN by (eapply Permutation_NoDup; [|exact ND]; change [a; b; c; d] with ([a; b] ++ [c; d]); now apply Permutation_app).
    cbn in NN. inversion NN as [|? ? N1 N2]; subst. inversion N2 as [|? ? N3 N4]; subst. inversion N4 as [|? ? N5 N6]; subst. cbn in N1, N5.
    split; [assert (a' <> b') by intuition|assert (c' <> d') by intuition]; lia. }
  intros p m p' m' HM. rewrite Msq_store. cbn [Msq].
  destruct (HM a ia Ea) as (-> & ->). destruct (HM b ib Eb) as (-> & ->). destruct (HM c ic Ec) as (-> & _). destruct (HM d id Ed) as (-> & _).
  rewrite !dot_neg, Ia, Ib, Ic, Id.
  assert (HC : (-1) ^ crossings r = sgn_of (crossed ia) * sgn_of (crossed ib) * sgn_of (crossed ic) * sgn_of (crossed id)).
  { rewrite crossings_prod. destruct (length4 r HLr) as (r0 & r1 & r2 & r3 & Er).
    assert (Q : fold_right Rmult 1 (map (fun x => sgn_of (is_crossed r x)) [a; b; c; d]) = fold_right Rmult 1 (map (fun x => sgn_of (is_crossed r x)) (seq 0 4))) by (apply perm_prod; now apply Permutation_map).
    unfold is_crossed in Q. cbn [map fold_right] in Q. rewrite Ea, Eb, Ec, Ed in Q. rewrite Er in Q |- *. cbn [seq map fold_right nth_error] in Q |- *. lra. }
  rewrite HC. unfold K2', is_crossed. rewrite Ea, Eb.
  destruct (crossed ia), (crossed ib), (crossed ic), (crossed id); cbn [xorb sgn_of]; ring.
Qed.
