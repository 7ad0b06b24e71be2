(* proofs about CrossModel: the generated reactions *)
From Coq Require Import Permutation Sorted.
From Verif Require Import Base CrossModel.
From Verif Require ReactionsProofs.

(* ---------- permutations ---------- *)
Lemma selects_spec {A} (l : list A) x r : In (x, r) (selects l) <-> exists l1 l2, l = l1 ++ x :: l2 /\ r = l1 ++ l2.
Proof.
  revert x r. induction l as [|y t IH]; intros x r; cbn.
  - split; [tauto|]. intros (l1 & l2 & E & _). destruct l1; discriminate.
  - split.
    + intros [E|H].
      * injection E as <- <-. now exists [], t.
      * apply in_map_iff in H. destruct H as ((z & s) & E & H). injection E as <- <-.
        apply IH in H. destruct H as (l1 & l2 & -> & ->). now exists (y :: l1), l2.
    + intros (l1 & l2 & E & ->). destruct l1 as [|z l1]; cbn in E; injection E as <- ->.
      * now left.
      * right. apply in_map_iff. exists (x, l1 ++ l2). split; [reflexivity|]. apply IH. now exists l1, l2.
Qed.
Lemma perms_n_spec {A} n : forall (l p : list A), length l = n -> (In p (perms_n n l) <-> Permutation l p).
Proof.
  induction n as [|n IH]; intros l p HL; cbn.
  - apply length_zero_iff_nil in HL. subst l. split; [intros [<-|[]]; constructor|]. intros H. apply Permutation_nil in H. now left.
  - rewrite in_flat_map. split.
    + intros ((x & r) & Hs & Hp). apply selects_spec in Hs. destruct Hs as (l1 & l2 & -> & ->).
      apply in_map_iff in Hp. destruct Hp as (q & <- & Hq). rewrite app_length in HL. cbn in HL.
      apply IH in Hq; [|rewrite app_length; lia]. rewrite <- Hq. symmetry. apply Permutation_middle.
    + intros H. destruct p as [|x q].
      * apply Permutation_sym, Permutation_nil in H. subst. discriminate.
      * assert (I : In x l) by (eapply Permutation_in; [symmetry; exact H|now left]).
        apply in_split in I. destruct I as (l1 & l2 & ->). exists (x, l1 ++ l2). split.
        -- apply selects_spec. now exists l1, l2.
        -- apply in_map. rewrite app_length in HL. cbn in HL. apply IH; [rewrite app_length; lia|].
           apply Permutation_cons_inv with (a := x). now rewrite Permutation_middle.
Qed.
Lemma permutations_spec {A} (l p : list A) : In p (permutations l) <-> Permutation l p.
Proof. now apply perms_n_spec. Qed.

(* ---------- the order of items ---------- *)
(* different species have different names and identities *)
Definition distinct_species (l : list item) : Prop :=
  forall x y, In x l -> In y l -> sid (ispecie x) = sid (ispecie y) \/ sname (ispecie x) = sname (ispecie y) -> ispecie x = ispecie y.

Definition before (a b : item) : Prop :=
  (iside a < iside b)%Z \/ iside a = iside b /\
  (String.compare (sname (ispecie a)) (sname (ispecie b)) = Lt \/ ispecie a = ispecie b /\
   (anti a = false /\ anti b = true \/ anti a = anti b /\
    (index a < index b \/ index a = index b /\ crossed a = false /\ crossed b = true))).

Lemma before_irrefl a : ~ before a a.
Proof.
  unfold before. rewrite ReactionsProofs.string_compare_refl. intros [H|(_ & [H|(_ & [(H & H')|(_ & [H|(_ & H & H')])])])]; try lia; congruence.
Qed.
Lemma before_trans a b c : before a b -> before b c -> before a c.
Proof.
  unfold before. intros [H|(E1 & H)] [G|(E2 & G)].
  - left; lia.
  - left; lia.
  - left; lia.
  - right. split; [congruence|]. destruct H as [H|(S1 & H)], G as [G|(S2 & G)].
    + left. eapply ReactionsProofs.string_lt_trans; eauto.
    + left. congruence.
    + left. congruence.
    + right. split; [congruence|]. destruct H as [(A & B)|(A & H)], G as [(C & D)|(C & G)].
      * congruence.
      * left. split; congruence.
      * left. split; congruence.
      * right. split; [congruence|]. destruct H as [H|(I1 & H)], G as [G|(I2 & G)]; try (left; lia).
        destruct H, G. congruence.
Qed.
Lemma item_ltb_before l a b : distinct_species l -> In a l -> In b l -> item_ltb a b = true <-> before a b.
Proof.
  intros HD Ha Hb. unfold item_ltb, before.
  destruct (Z.eqb_spec (iside a) (iside b)) as [E|N]; cbn [negb].
  2: { rewrite Z.ltb_lt. split; [now left|]. intros [H|(H & _)]; [exact H|contradiction]. }
  destruct (Nat.eqb_spec (sid (ispecie a)) (sid (ispecie b))) as [Es|Ns]; cbn [negb].
  2: { rewrite ReactionsProofs.ltb_lt. split; [intros H; right; auto|].
       intros [H|(_ & [H|(H & _)])]; [lia|exact H|]. exfalso. apply Ns. now rewrite H. }
  assert (S1 : ispecie a = ispecie b) by (apply HD; auto). rewrite S1, ReactionsProofs.string_compare_refl.
  destruct (Bool.eqb_spec (anti a) (anti b)) as [Ea|Na]; cbn [negb].
  2: { unfold bool_ltb. split.
       - intros H. right. split; [exact E|]. right. split; [reflexivity|]. left. destruct (anti a), (anti b); cbn in H; try discriminate; auto.
       - intros [H|(_ & [H|(_ & [(-> & ->)|(H & _)])])]; [lia|discriminate|reflexivity|contradiction]. }
  destruct (Nat.eqb_spec (index a) (index b)) as [Ei|Ni]; cbn [negb].
  2: { rewrite Nat.ltb_lt. split.
       - intros H. right. split; [exact E|]. right. split; [reflexivity|]. right. auto.
       - intros [H|(_ & [H|(_ & [(H & H')|(_ & [H|(H & _)])])])]; [lia|discriminate|congruence|exact H|contradiction]. }
  unfold bool_ltb. split.
  - intros H. right. split; [exact E|]. right. split; [reflexivity|]. right. split; [exact Ea|]. right. split; [exact Ei|].
    destruct (crossed a), (crossed b); cbn in H; try discriminate; auto.
  - intros [H|(_ & [H|(_ & [(H & H')|(_ & [H|(_ & -> & ->)])])])]; [lia|discriminate|congruence|lia|reflexivity].
Qed.
Lemma before_total l a b : distinct_species l -> In a l -> In b l -> index a <> index b -> before a b \/ before b a.
Proof.
  intros HD Ha Hb Hi. unfold before. rewrite (ReactionsProofs.string_compare_opp (sname (ispecie a)) (sname (ispecie b))).
  destruct (Z.lt_trichotomy (iside a) (iside b)) as [H|[H|H]]; [left; now left| |right; now left].
  destruct (String.compare (sname (ispecie a)) (sname (ispecie b))) eqn:C; cbn.
  - apply ReactionsProofs.string_compare_eq in C.
    assert (S1 : ispecie a = ispecie b) by (apply HD; auto).
    destruct (anti a) eqn:Aa, (anti b) eqn:Ab.
    + destruct (Nat.lt_trichotomy (index a) (index b)) as [I|[I|I]]; [left|contradiction|right]; right; (split; [auto|]); right; (split; [auto|]); right; auto.
    + right. right. split; [auto|]. right. split; [auto|]. left. auto.
    + left. right. split; [auto|]. right. split; [auto|]. left. auto.
    + destruct (Nat.lt_trichotomy (index a) (index b)) as [I|[I|I]]; [left|contradiction|right]; right; (split; [auto|]); right; (split; [auto|]); right; auto.
  - left. right. auto.
  - right. right. auto.
Qed.

(* ---------- sorting ---------- *)
Lemma insert_asc_perm x l : Permutation (insert_asc x l) (x :: l).
Proof.
  induction l as [|y t IH]; cbn; [reflexivity|]. destruct (item_ltb y x); [|reflexivity]. rewrite IH. apply perm_swap.
Qed.
Lemma sorted_perm l : Permutation (sorted l) l.
Proof. induction l as [|x t IH]; cbn; [constructor|]. rewrite insert_asc_perm. now constructor. Qed.
Lemma StronglySorted_insert L x l : distinct_species L -> incl (x :: l) L -> NoDup (map index (x :: l)) ->
  StronglySorted before l -> StronglySorted before (insert_asc x l).
Proof.
  intros HD HL HN HS. induction HS as [|y t HS IH HF]; cbn.
  - constructor; constructor.
  - cbn in HN. inversion HN as [|? ? N1 N2]; subst. inversion N2 as [|? ? N3 N4]; subst.
    destruct (item_ltb y x) eqn:C.
    + constructor.
      * apply IH; [intros z Hz; apply HL; cbn in Hz |- *; tauto|]. cbn. constructor; [|assumption]. cbn in N1; tauto.
      * rewrite Forall_forall. intros z Hz. apply (Permutation_in z (insert_asc_perm x t)) in Hz. destruct Hz as [<-|Hz].
        -- apply (item_ltb_before L); auto; apply HL; cbn; auto.
        -- rewrite Forall_forall in HF. auto.
    + assert (B : before x y).
      { destruct (before_total L x y HD) as [B|B]; auto; [apply HL; cbn; auto|apply HL; cbn; auto|intros E; apply N1; left; now symmetry|].
        exfalso. apply (item_ltb_before L) in B; auto; try (apply HL; cbn; auto). congruence. }
      constructor; [constructor; auto|]. constructor; [exact B|]. rewrite Forall_forall in *. intros z Hz. eapply before_trans; eauto.
Qed.
Lemma sorted_sorted L l : distinct_species L -> incl l L -> NoDup (map index l) -> StronglySorted before (sorted l).
Proof.
  intros HD. induction l as [|x t IH]; cbn; intros HL HN; [constructor|].
  inversion HN; subst. apply (StronglySorted_insert L); auto.
  - intros z [<-|Hz]; [apply HL; now left|]. apply HL. right. eapply Permutation_in; [apply sorted_perm|exact Hz].
  - cbn. constructor.
    + intros Hi. apply H1. eapply Permutation_in; [|exact Hi]. apply Permutation_map, sorted_perm.
    + eapply Permutation_NoDup; [|exact H2]. apply Permutation_map. symmetry. apply sorted_perm.
  - apply IH; auto. intros z Hz. apply HL. now right.
Qed.
Lemma sorted_unique l l' : Permutation l l' -> StronglySorted before l -> StronglySorted before l' -> l = l'.
Proof.
  revert l'. induction l as [|x t IH]; intros l' HP H H'.
  - apply Permutation_nil in HP. now subst.
  - destruct l' as [|y t']; [apply Permutation_sym, Permutation_nil in HP; discriminate|].
    inversion H as [|? ? H1 H2]; subst. inversion H' as [|? ? H1' H2']; subst. rewrite Forall_forall in H2, H2'.
    assert (E : x = y).
    { assert (Ix : In x (y :: t')) by (eapply Permutation_in; [exact HP|now left]).
      assert (Iy : In y (x :: t)) by (eapply Permutation_in; [symmetry; exact HP|now left]).
      destruct Ix as [->|Ix]; [reflexivity|]. destruct Iy as [->|Iy]; [reflexivity|].
      exfalso. apply (before_irrefl x). eapply before_trans; eauto. }
    subst y. f_equal. apply IH; auto. eapply Permutation_cons_inv; eauto.
Qed.

(* ---------- crossing to a side ---------- *)
Definition to_side (s : Z) (it : item) : item := if (iside it =? s)%Z then it else cross_particle it.
Definition two_sided (l : list item) : Prop := forall it, In it l -> iside it = (-1)%Z \/ iside it = 1%Z.

Lemma to_side_side s it : (s = -1 \/ s = 1)%Z -> (iside it = -1 \/ iside it = 1)%Z -> iside (to_side s it) = s.
Proof. intros Hs Hi. unfold to_side. destruct (Z.eqb_spec (iside it) s); [auto|]. cbn. lia. Qed.
Lemma to_side_index s it : index (to_side s it) = index it.
Proof. unfold to_side. destruct (_ =? _)%Z; reflexivity. Qed.
Lemma to_side_specie s it : ispecie (to_side s it) = ispecie it.
Proof. unfold to_side. destruct (_ =? _)%Z; reflexivity. Qed.

Lemma arrange_from_spec i : forall perm j, two_sided perm ->
  arrange_from i j perm = map (to_side (-1)) (firstn (S i - j) perm) ++ map (to_side 1) (skipn (S i - j) perm).
Proof.
  induction perm as [|it t IH]; intros j H2; cbn [arrange_from].
  - now rewrite firstn_nil, skipn_nil.
  - assert (Ht : two_sided t) by (intros x Hx; apply H2; now right). rewrite (IH (S j) Ht).
    pose proof (H2 it (or_introl eq_refl)) as Hi. unfold cross_at.
    destruct (le_lt_dec j i) as [L|L].
    + replace (S i - j) with (S (S i - S j)) by lia. cbn [firstn skipn map app]. f_equal.
      replace (i <? j) with false by (symmetry; apply Nat.ltb_ge; lia). replace (j <=? i) with true by (symmetry; apply Nat.leb_le; lia).
      unfold to_side. destruct Hi as [-> | ->]; reflexivity.
    + replace (S i - j) with 0 by lia. replace (S i - S j) with 0 by lia. cbn [firstn skipn map app]. f_equal.
      replace (i <? j) with true by (symmetry; apply Nat.ltb_lt; lia). replace (j <=? i) with false by (symmetry; apply Nat.leb_gt; lia).
      unfold to_side. destruct Hi as [-> | ->]; reflexivity.
Qed.
Lemma arrange_spec i perm : two_sided perm ->
  arrange i perm = map (to_side (-1)) (firstn (S i) perm) ++ map (to_side 1) (skipn (S i) perm).
Proof. intros H. unfold arrange. rewrite (arrange_from_spec i perm 0 H). now rewrite Nat.sub_0_r. Qed.

Lemma filter_all {A} (f : A -> bool) l : (forall x, In x l -> f x = true) -> filter f l = l.
Proof. induction l as [|x t IH]; cbn; intros H; auto. rewrite (H x) by now left. f_equal. apply IH. intros; apply H; now right. Qed.
Lemma filter_none {A} (f : A -> bool) l : (forall x, In x l -> f x = false) -> filter f l = [].
Proof. induction l as [|x t IH]; cbn; intros H; auto. rewrite (H x) by now left. apply IH. intros; apply H; now right. Qed.
Lemma firstn_incl {A} n (l : list A) : incl (firstn n l) l.
Proof. intros x Hx. rewrite <- (firstn_skipn n l). apply in_or_app; now left. Qed.
Lemma skipn_incl {A} n (l : list A) : incl (skipn n l) l.
Proof. intros x Hx. rewrite <- (firstn_skipn n l). apply in_or_app; now right. Qed.

Lemma split_sides L Rr : two_sided (L ++ Rr) ->
  filter (fun it => (iside it =? -1)%Z) (map (to_side (-1)) L ++ map (to_side 1) Rr) = map (to_side (-1)) L /\
  filter (fun it => (iside it =? 1)%Z) (map (to_side (-1)) L ++ map (to_side 1) Rr) = map (to_side 1) Rr.
Proof.
  intros H2.
  assert (HL : forall x, In x (map (to_side (-1)) L) -> iside x = (-1)%Z).
  { intros x Hx. apply in_map_iff in Hx. destruct Hx as (y & <- & Hy). apply to_side_side; auto. apply H2. apply in_or_app; auto. }
  assert (HR : forall x, In x (map (to_side 1) Rr) -> iside x = 1%Z).
  { intros x Hx. apply in_map_iff in Hx. destruct Hx as (y & <- & Hy). apply to_side_side; auto. apply H2. apply in_or_app; auto. }
  rewrite !filter_app. split.
  - rewrite filter_all, filter_none, app_nil_r; auto; intros x Hx; [rewrite (HR x Hx)|rewrite (HL x Hx)]; reflexivity.
  - rewrite filter_none, (filter_all _ (map (to_side 1) Rr)); auto; intros x Hx; [rewrite (HR x Hx)|rewrite (HL x Hx)]; reflexivity.
Qed.

(* the reaction built from a first particle, the other left and the right ones *)
Definition outcome (f : item) (L Rr : list item) : option (list item) :=
  let h := to_side (-1) f in
  let lhs := h :: sorted (map (to_side (-1)) L) in
  let rhs := sorted (map (to_side 1) Rr) in
  if anti h then None else if impossible lhs rhs then None else Some (lhs ++ rhs).
Lemma candidate_spec f L Rr : two_sided (f :: L ++ Rr) -> candidate (f :: L ++ Rr) (length L) = Ok (outcome f L Rr).
Proof.
  intros H2. unfold candidate. rewrite arrange_spec by exact H2.
  cbn [firstn skipn]. rewrite firstn_app, Nat.sub_diag, firstn_all, firstn_O, app_nil_r, skipn_app, Nat.sub_diag, skipn_all, skipn_O. cbn [app map].
  change (to_side (-1) f :: map (to_side (-1)) L ++ map (to_side 1) Rr) with (map (to_side (-1)) (f :: L) ++ map (to_side 1) Rr).
  destruct (split_sides (f :: L) Rr H2) as (-> & ->). cbn [map]. unfold outcome.
  destruct (anti (to_side (-1) f)); [reflexivity|]. destruct (impossible _ _); reflexivity.
Qed.
Lemma candidate_split (perm : list item) i : i < length perm - 1 -> exists f L Rr, perm = f :: L ++ Rr /\ length L = i /\ Rr <> [].
Proof.
  intros H. destruct perm as [|f t]; cbn in H; [lia|]. exists f, (firstn i t), (skipn i t). split; [now rewrite firstn_skipn|].
  split; [apply firstn_length_le; lia|]. intros E. apply (f_equal (@length item)) in E. rewrite skipn_length in E. cbn in E. lia.
Qed.

(* ---------- the dictionary of reactions ---------- *)
Lemma item_eqb_refl x : item_eqb x x = true.
Proof. unfold item_eqb. rewrite Z.eqb_refl, !Nat.eqb_refl, !Bool.eqb_reflx. reflexivity. Qed.
Lemma key_eqb_refl r : key_eqb r r = true.
Proof. induction r as [|x t IH]; cbn; auto. now rewrite item_eqb_refl. Qed.
Lemma item_eqb_eq x y : (sid (ispecie x) = sid (ispecie y) -> ispecie x = ispecie y) -> item_eqb x y = true -> x = y.
Proof.
  intros HS. unfold item_eqb. rewrite !Bool.andb_true_iff, Z.eqb_eq, !Nat.eqb_eq, !Bool.eqb_true_iff.
  intros ((((A & B) & C) & D) & F). apply HS in B. destruct x, y; cbn in *; congruence.
Qed.
Lemma key_eqb_eq L : distinct_species L -> forall r r', incl r L -> incl r' L -> key_eqb r r' = true -> r = r'.
Proof.
  intros HD. induction r as [|x t IH]; intros [|y t'] H H' E; cbn in E; try discriminate; auto.
  apply Bool.andb_true_iff in E. destruct E as (E1 & E2). f_equal.
  - apply item_eqb_eq; auto. intros S1. apply HD; auto; [apply H|apply H']; now left.
  - apply IH; auto; intros z Hz; [apply H|apply H']; now right.
Qed.
Lemma remember_spec L rs r : distinct_species L -> (forall q, In q rs -> incl q L) -> incl r L -> NoDup rs ->
  NoDup (remember rs r) /\ (forall q, In q (remember rs r) <-> In q rs \/ q = r).
Proof.
  intros HD HI Hr HN. unfold remember. destruct (existsb (key_eqb r) rs) eqn:E.
  - split; [exact HN|]. apply existsb_exists in E. destruct E as (q & Hq & E). apply (key_eqb_eq L HD) in E; auto. subst q.
    intros q. split; [tauto|]. intros [H| ->]; auto.
  - split.
    + apply (Permutation_NoDup (Permutation_cons_append rs r)). constructor; [|exact HN].
      intros I. assert (existsb (key_eqb r) rs = true) by (apply existsb_exists; exists r; split; [exact I|apply key_eqb_refl]). congruence.
    + intros q. rewrite in_app_iff. cbn. intuition.
Qed.
(* the two nested loops *)
Definition upd (reactions : list (list item)) (c : option (list item)) := match c with None => reactions | Some r => remember reactions r end.
Lemma inner_loop L perm is : distinct_species L -> forall rs,
  (forall i, In i is -> exists c, candidate perm i = Ok c /\ forall r, c = Some r -> incl r L) ->
  (forall q, In q rs -> incl q L) -> NoDup rs ->
  exists rs', rfold (fun reactions i => let* c := candidate perm i in Ok (upd reactions c)) rs is = Ok rs' /\ NoDup rs' /\
  (forall q, In q rs' <-> In q rs \/ exists i, In i is /\ candidate perm i = Ok (Some q)).
Proof.
  intros HD. induction is as [|i is IH]; intros rs HC HI HN; cbn [rfold].
  - exists rs. split; [reflexivity|]. split; [exact HN|]. intros q. split; [tauto|]. intros [H|(i & [] & _)]; exact H.
  - destruct (HC i (or_introl eq_refl)) as (c & Ec & Hc). rewrite Ec. cbn [rbind].
    assert (HU : NoDup (upd rs c) /\ (forall q, In q (upd rs c) <-> In q rs \/ c = Some q)).
    { destruct c as [r|]; cbn [upd].
      - destruct (remember_spec L rs r HD HI (Hc r eq_refl) HN) as (A & B). split; [exact A|]. intros q. rewrite B.
        split; (intros [H|H]; [now left|right; congruence]).
      - split; [exact HN|]. intros q. split; [tauto|]. intros [H|H]; [exact H|discriminate]. }
    destruct HU as (A & B). destruct (IH (upd rs c)) as (rs' & E & N & S1).
    + intros k Hk. apply HC. now right.
    + intros q Hq. apply B in Hq. destruct Hq as [Hq|Hq]; [now apply HI|now apply Hc].
    + exact A.
    + exists rs'. split; [exact E|]. split; [exact N|]. intros q. rewrite S1, B. split.
      * intros [[H|H]|(k & Hk & H)]; [now left| |]; right; [exists i; subst c; split; [now left|exact Ec]|exists k; split; [now right|exact H]].
      * intros [H|(k & [<-|Hk] & H)]; [auto|left; right; congruence|right; eauto].
Qed.
Lemma outer_loop L is perms : distinct_species L -> forall rs,
  (forall perm i, In perm perms -> In i is -> exists c, candidate perm i = Ok c /\ forall r, c = Some r -> incl r L) ->
  (forall q, In q rs -> incl q L) -> NoDup rs ->
  exists rs', rfold (fun reactions perm => rfold (fun reactions i => let* c := candidate perm i in Ok (upd reactions c)) reactions is) rs perms = Ok rs' /\ NoDup rs' /\
  (forall q, In q rs' <-> In q rs \/ exists perm i, In perm perms /\ In i is /\ candidate perm i = Ok (Some q)).
Proof.
  intros HD. induction perms as [|perm perms IH]; intros rs HC HI HN.
  - exists rs. cbn. split; [reflexivity|]. split; [exact HN|]. intros q. split; [tauto|]. intros [H|(p & i & [] & _)]; exact H.
  - destruct (inner_loop L perm is HD rs) as (rs1 & E1 & N1 & S1); auto.
    { intros i Hi. apply HC; auto. now left. }
    cbn [rfold]. rewrite E1.
    destruct (IH rs1) as (rs2 & E2 & N2 & S2); auto.
    { intros p i Hp Hi. apply HC; auto. now right. }
    { intros q Hq. apply S1 in Hq. destruct Hq as [Hq|(i & Hi & Hq)]; [now apply HI|].
      destruct (HC perm i (or_introl eq_refl) Hi) as (c & Ec & Hc). apply Hc. congruence. }
    exists rs2. split; [exact E2|]. split; [exact N2|]. intros q. rewrite S2, S1. split.
    + intros [[H|(i & Hi & H)]|(p & i & Hp & Hi & H)]; [now left| |]; right; [exists perm, i|exists p, i]; cbn; auto.
    + intros [H|(p & i & [<-|Hp] & Hi & H)]; [auto|left; right; eauto|right; eauto].
Qed.

(* ---------- the base items ---------- *)
Lemma items_from_length sd s ps fs : length ps = length fs -> length (items_from sd s ps fs) = length ps.
Proof. revert s fs. induction ps as [|p t IH]; intros s [|a fs] H; cbn in *; try lia. rewrite IH; lia. Qed.
Lemma items_from_side sd s ps fs it : In it (items_from sd s ps fs) -> iside it = sd.
Proof. revert s fs. induction ps as [|p t IH]; intros s [|a fs]; cbn; try tauto. intros [<-|H]; [reflexivity|eauto]. Qed.
Lemma items_from_index sd s ps fs : length ps = length fs -> map index (items_from sd s ps fs) = seq s (length ps).
Proof. revert s fs. induction ps as [|p t IH]; intros s [|a fs] H; cbn in *; try lia; auto. f_equal. apply IH. lia. Qed.
Lemma items_from_crossed sd s ps fs it : In it (items_from sd s ps fs) -> crossed it = false.
Proof. revert s fs. induction ps as [|p t IH]; intros s [|a fs]; cbn; try tauto. intros [<-|H]; [reflexivity|eauto]. Qed.

(* a flag for every particle *)
Definition flags_ok (particles : list specie * list specie) (antiparticles : list bool * list bool) : Prop :=
  length (fst particles) = length (fst antiparticles) /\ length (snd particles) = length (snd antiparticles).
Lemma base_two_sided ps fs : two_sided (base_items ps fs).
Proof. intros it H. unfold base_items in H. apply in_app_or in H. destruct H as [H|H]; apply items_from_side in H; auto. Qed.
Lemma base_index ps fs : flags_ok ps fs -> map index (base_items ps fs) = seq 0 (length (fst ps) + length (snd ps)).
Proof.
  intros (A & B). unfold base_items. rewrite map_app, !items_from_index by auto. now rewrite seq_app.
Qed.
Lemma base_length ps fs : flags_ok ps fs -> length (base_items ps fs) = length (fst ps) + length (snd ps).
Proof. intros H. rewrite <- (map_length index), base_index by auto. apply seq_length. Qed.
Lemma base_crossed ps fs it : In it (base_items ps fs) -> crossed it = false.
Proof. unfold base_items. intros H. apply in_app_or in H. destruct H as [H|H]; now apply items_from_crossed in H. Qed.

Definition reachable_items (base : list item) : list item := map (to_side (-1)) base ++ map (to_side 1) base.
Lemma distinct_reachable base : distinct_species base -> distinct_species (reachable_items base).
Proof.
  intros HD x y Hx Hy. unfold reachable_items in *.
  assert (G : forall z, In z (map (to_side (-1)) base ++ map (to_side 1) base) -> exists w, In w base /\ ispecie z = ispecie w).
  { intros z Hz. apply in_app_or in Hz. destruct Hz as [Hz|Hz]; apply in_map_iff in Hz; destruct Hz as (w & <- & Hw); exists w; rewrite to_side_specie; auto. }
  destruct (G x Hx) as (x' & Ix & ->). destruct (G y Hy) as (y' & Iy & ->). now apply HD.
Qed.
Lemma outcome_reachable base f L Rr r : incl (f :: L ++ Rr) base -> outcome f L Rr = Some r -> incl r (reachable_items base).
Proof.
  intros HI. unfold outcome. destruct (anti _); [discriminate|]. destruct (impossible _ _); [discriminate|]. intros E. injection E as <-.
  intros z Hz. unfold reachable_items. apply in_or_app.
  destruct Hz as [<-|Hz]; [left; apply in_map; apply HI; now left|]. apply in_app_or in Hz. destruct Hz as [Hz|Hz];
    apply (Permutation_in _ (sorted_perm _)) in Hz; apply in_map_iff in Hz; destruct Hz as (w & <- & Hw); [left|right]; apply in_map, HI; right; apply in_or_app; auto.
Qed.

(* what reactions_map returns *)
Lemma reactions_map_spec ps fs : flags_ok ps fs -> distinct_species (base_items ps fs) ->
  exists rs, reactions_map ps fs = Ok rs /\ NoDup rs /\
  forall r, In r rs <-> exists f L Rr, Permutation (base_items ps fs) (f :: L ++ Rr) /\ Rr <> [] /\ outcome f L Rr = Some r.
Proof.
  intros HF HD. set (base := base_items ps fs) in *.
  assert (H2 : forall p, Permutation base p -> two_sided p).
  { intros p HP it Hit. apply (base_two_sided ps fs). eapply Permutation_in; [symmetry; exact HP|exact Hit]. }
  destruct (outer_loop (reachable_items base) (seq 0 (length (fst ps) + length (snd ps) - 1)) (permutations base) (distinct_reachable base HD) []) as (rs & E & N & S1).
  - intros perm i Hp Hi. apply permutations_spec in Hp. apply in_seq in Hi.
    assert (HL : length perm = length (fst ps) + length (snd ps)) by (rewrite <- (Permutation_length Hp); now apply base_length).
    destruct (candidate_split perm i) as (f & L & Rr & -> & <- & HR); [lia|].
    exists (outcome f L Rr). split; [apply candidate_spec; now apply H2|]. intros r Er. eapply outcome_reachable; [|exact Er].
    intros z Hz. eapply Permutation_in; [symmetry; exact Hp|exact Hz].
  - intros q [].
  - constructor.
  - exists rs. split; [exact E|]. split; [exact N|]. intros r. rewrite S1. split.
    + intros [[]|(perm & i & Hp & Hi & Hc)]. apply permutations_spec in Hp. apply in_seq in Hi.
      assert (HL : length perm = length (fst ps) + length (snd ps)) by (rewrite <- (Permutation_length Hp); now apply base_length).
      destruct (candidate_split perm i) as (f & L & Rr & -> & <- & HR); [lia|].
      exists f, L, Rr. split; [exact Hp|]. split; [exact HR|]. rewrite candidate_spec in Hc by now apply H2. congruence.
    + intros (f & L & Rr & Hp & HR & Ho). right. exists (f :: L ++ Rr), (length L). split; [now apply permutations_spec|]. split.
      * apply in_seq. rewrite <- (base_length ps fs HF). fold base. rewrite (Permutation_length Hp). cbn. rewrite app_length.
        destruct Rr; [contradiction|]. cbn. lia.
      * rewrite candidate_spec by now apply H2. congruence.
Qed.
