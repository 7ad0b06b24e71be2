From Coq Require Import Permutation Sorted Ascii.
From Verif Require Import Base ReactionsModel.

(* ---------- string order facts ---------- *)
Lemma ascii_compare_lt a b : Ascii.compare a b = Lt <-> (N_of_ascii a < N_of_ascii b)%N.
Proof. unfold Ascii.compare. apply N.compare_lt_iff. Qed.
Lemma ascii_compare_eq a b : Ascii.compare a b = Eq <-> a = b.
Proof.
  unfold Ascii.compare. rewrite N.compare_eq_iff. split; [|now intros ->].
  intros H. rewrite <- (ascii_N_embedding a), H. apply ascii_N_embedding.
Qed.
Lemma ascii_compare_antisym a b : Ascii.compare b a = CompOpp (Ascii.compare a b).
Proof. unfold Ascii.compare. now rewrite N.compare_antisym. Qed.

Lemma string_compare_refl s : String.compare s s = Eq.
Proof. induction s as [|c s IH]; [reflexivity|]. simpl. now rewrite (proj2 (ascii_compare_eq c c) eq_refl). Qed.
Lemma string_compare_eq s t : String.compare s t = Eq -> s = t.
Proof.
  revert t; induction s as [|c s IH]; intros [|d t]; simpl; try discriminate; auto.
  destruct (Ascii.compare c d) eqn:E; try discriminate.
  apply ascii_compare_eq in E. intros H. subst. f_equal. auto.
Qed.
Lemma string_compare_opp s t : String.compare t s = CompOpp (String.compare s t).
Proof.
  revert t; induction s as [|c s IH]; intros [|d t]; simpl; auto.
  rewrite (ascii_compare_antisym c d). destruct (Ascii.compare c d); simpl; auto.
Qed.
Lemma string_lt_trans s t u : String.compare s t = Lt -> String.compare t u = Lt -> String.compare s u = Lt.
Proof.
  revert t u; induction s as [|c s IH]; intros [|d t] [|e u]; simpl; try discriminate; auto.
  destruct (Ascii.compare c d) eqn:E1; try discriminate; intros H1;
  destruct (Ascii.compare d e) eqn:E2; try discriminate; intros H2.
  - apply ascii_compare_eq in E1, E2. subst. rewrite (proj2 (ascii_compare_eq _ _) eq_refl). eauto.
  - apply ascii_compare_eq in E1. subst. now rewrite E2.
  - apply ascii_compare_eq in E2. subst. now rewrite E1.
  - apply ascii_compare_lt in E1, E2. rewrite (proj2 (ascii_compare_lt c e)); [reflexivity|].
    eapply N.lt_trans; eauto.
Qed.
Lemma ltb_lt s t : String.ltb s t = true <-> String.compare s t = Lt.
Proof. unfold String.ltb. destruct (String.compare s t); split; congruence. Qed.

(* ---------- reaction types ---------- *)
Definition two_sided (r : reaction) : Prop :=
  (forall it, In it r -> side it = (-1)%Z \/ side it = 1%Z) /\
  (exists it, In it r /\ side it = (-1)%Z) /\ (exists it, In it r /\ side it = 1%Z).

Definition flip (r : reaction) : reaction := map (fun it => mkitem (- side it) (rspecie it)) r.

(* number of particles on each side *)
Definition nleft (r : reaction) := length (filter (fun it => (side it =? -1)%Z) r).
Definition nright (r : reaction) := length (filter (fun it => (side it =? 1)%Z) r).

Lemma sumsides_count r : (forall it, In it r -> side it = (-1)%Z \/ side it = 1%Z) ->
  sumsides r = (Z.of_nat (nright r) - Z.of_nat (nleft r))%Z /\ nleft r + nright r = length r.
Proof.
  unfold sumsides, nleft, nright. induction r as [|it r IH]; intros H; [split; reflexivity|].
  destruct IH as [IH1 IH2]; [intros; apply H; now right|].
  cbn [map fold_right filter length]. rewrite IH1. clear IH1.
  destruct (H it (or_introl eq_refl)) as [E|E]; rewrite E.
  - change (-1 =? 1)%Z with false. change (-1 =? -1)%Z with true. cbn [length]. lia.
  - change (1 =? 1)%Z with true. change (1 =? -1)%Z with false. cbn [length]. lia.
Qed.

Lemma count_pos (p : ritem -> bool) r it : In it r -> p it = true -> 0 < length (filter p r).
Proof.
  intros H1 H2. assert (In it (filter p r)) by (apply filter_In; auto).
  destruct (filter p r); [easy|simpl; lia].
Qed.

Lemma two_sided_counts r : two_sided r -> 0 < nleft r /\ 0 < nright r /\ nleft r + nright r = length r /\
  sumsides r = (Z.of_nat (nright r) - Z.of_nat (nleft r))%Z.
Proof.
  intros (H & (a & Ha & Ea) & (b & Hb & Eb)). destruct (sumsides_count r H) as [H1 H2].
  split; [|split; [|split; [exact H2|exact H1]]].
  - apply (count_pos _ r a Ha). now rewrite Ea.
  - apply (count_pos _ r b Hb). now rewrite Eb.
Qed.

Lemma existsb_Z_In z l : existsb (Z.eqb z) l = true <-> In z l.
Proof.
  rewrite existsb_exists. split.
  - intros (x & Hx & E). apply Z.eqb_eq in E. now subst.
  - intros H. exists z. split; [exact H|apply Z.eqb_refl].
Qed.

Lemma types_by_count r : two_sided r -> length r = 3 \/ length r = 4 ->
  (is_CREATION r = true <-> nright r < nleft r) /\
  (is_SCATTERING r = true <-> nright r = nleft r) /\
  (is_DECAY r = true <-> nleft r < nright r).
Proof.
  intros H2 HL. destruct (two_sided_counts r H2) as (H3 & H4 & H5 & H6).
  unfold is_CREATION, is_SCATTERING, is_DECAY. rewrite !existsb_Z_In, H6. simpl. lia.
Qed.

Lemma sumsides_perm r r' : Permutation r r' -> sumsides r = sumsides r'.
Proof. unfold sumsides. induction 1; simpl; lia. Qed.

Lemma sumsides_flip r : sumsides (flip r) = (- sumsides r)%Z.
Proof. unfold sumsides, flip. induction r as [|it r IH]; [reflexivity|]. cbn [map fold_right side]. lia. Qed.

Lemma flip_types r :
  is_CREATION (flip r) = is_DECAY r /\ is_DECAY (flip r) = is_CREATION r /\
  is_SCATTERING (flip r) = is_SCATTERING r.
Proof.
  unfold is_CREATION, is_DECAY, is_SCATTERING. rewrite sumsides_flip.
  assert (forall z l l', (forall x, In x l <-> In (- x)%Z l') ->
            existsb (Z.eqb (- z)) l' = existsb (Z.eqb z) l) as H.
  { intros z l l' Hl. apply eq_true_iff_eq. rewrite !existsb_Z_In. rewrite (Hl z). reflexivity. }
  repeat split; apply H; simpl; intros x; lia.
Qed.

(* ---------- filters ---------- *)
Lemma mem_name_In n names : mem_name n names = true <-> In n names.
Proof.
  unfold mem_name. rewrite existsb_exists. split.
  - intros (x & Hx & E). apply String.eqb_eq in E. now subst.
  - intros H. exists n. split; [exact H|apply String.eqb_refl].
Qed.

(* order-preserving sub-list selected by a predicate, stated independently *)
Inductive selects {A} (P : A -> Prop) : list A -> list A -> Prop :=
| sel_nil : selects P [] []
| sel_keep x l l' : P x -> selects P l l' -> selects P (x :: l) (x :: l')
| sel_drop x l l' : ~ P x -> selects P l l' -> selects P (x :: l) l'.

Lemma filter_selects {A} (f : A -> bool) (P : A -> Prop) l :
  (forall x, f x = true <-> P x) -> selects P l (filter f l).
Proof.
  intros H. induction l as [|x l IH]; [constructor|]. simpl.
  destruct (f x) eqn:E; [constructor 2|constructor 3]; auto.
  - now apply H.
  - intros HP. apply H in HP. congruence.
Qed.

Lemma rfilter_ok {A} (f : A -> result bool) (g : A -> bool) l :
  (forall x, In x l -> f x = Ok (g x)) -> rfilter f l = Ok (filter g l).
Proof.
  induction l as [|x l IH]; intros H; [reflexivity|]. cbn [rfilter filter].
  rewrite (H x (or_introl eq_refl)). cbn [rbind]. rewrite IH by (intros; apply H; now right).
  cbn [rbind]. now destruct (g x).
Qed.

Lemma rmapl_ok {A B} (f : A -> result B) (g : A -> B) l :
  (forall x, In x l -> f x = Ok (g x)) -> rmapl f l = Ok (map g l).
Proof.
  induction l as [|x l IH]; intros H; [reflexivity|]. cbn [rmapl map].
  rewrite (H x (or_introl eq_refl)). cbn [rbind]. rewrite IH by (intros; apply H; now right). reflexivity.
Qed.

Definition keep_first_b (names : list string) (sums : list Z) (r : reaction) : bool :=
  match keep_first names sums r with Ok b => b | Raise _ => false end.

Lemma interaction_filter_first names inters sums :
  (forall i r, In i inters -> In r i -> r <> []) ->
  interaction_filter names inters true sums = Ok (map (filter (keep_first_b names sums)) inters).
Proof.
  intros H. cbn [interaction_filter]. apply rmapl_ok. intros i Hi. apply rfilter_ok.
  intros r Hr. specialize (H i r Hi Hr). destruct r as [|it r]; [congruence|reflexivity].
Qed.

Definition survives_first names sums (r : reaction) : Prop :=
  (exists it rest, r = it :: rest /\ ~ In (pname (rspecie it)) names) /\ ~ In (sumsides r) sums.
Definition survives_all names sums (r : reaction) : Prop :=
  (forall it, In it r -> ~ In (pname (rspecie it)) names) /\ ~ In (sumsides r) sums.

Lemma keep_first_b_spec names sums r : keep_first_b names sums r = true <-> survives_first names sums r.
Proof.
  unfold keep_first_b, survives_first. destruct r as [|it r].
  - cbn. split; [discriminate|]. intros ((a & b & E & _) & _). discriminate.
  - cbn [keep_first]. rewrite andb_true_iff, !negb_true_iff, <- !not_true_iff_false, mem_name_In, existsb_Z_In.
    split.
    + intros [H1 H2]. split; [|exact H2]. eauto.
    + intros ((a & b & E & H1) & H2). injection E as <- <-. auto.
Qed.
Lemma keep_all_spec names sums r : keep_all names sums r = true <-> survives_all names sums r.
Proof.
  unfold keep_all, survives_all.
  rewrite andb_true_iff, negb_true_iff, <- not_true_iff_false, existsb_Z_In, forallb_forall.
  split; intros [H1 H2]; (split; [|exact H2]); intros it Hit; specialize (H1 it Hit).
  - rewrite negb_true_iff, <- not_true_iff_false, mem_name_In in H1. exact H1.
  - rewrite negb_true_iff, <- not_true_iff_false, mem_name_In. exact H1.
Qed.

Lemma interaction_filter_spec names inters sums (fo : bool) :
  (fo = true -> forall i r, In i inters -> In r i -> r <> []) ->
  exists out, interaction_filter names inters fo sums = Ok out /\
    Forall2 (selects (if fo then survives_first names sums else survives_all names sums)) inters out.
Proof.
  intros H. destruct fo.
  - exists (map (filter (keep_first_b names sums)) inters).
    split; [apply interaction_filter_first; exact (H eq_refl)|]. clear.
    induction inters as [|i l IH]; cbn [map]; [constructor|]. constructor; [|exact IH].
    apply filter_selects. intros; apply keep_first_b_spec.
  - exists (map (filter (keep_all names sums)) inters). split; [reflexivity|]. clear.
    induction inters as [|i l IH]; cbn [map]; [constructor|]. constructor; [|exact IH].
    apply filter_selects. intros; apply keep_all_spec.
Qed.

Lemma filter_filter {A} (f g : A -> bool) l : filter f (filter g l) = filter (fun x => g x && f x) l.
Proof.
  induction l as [|x l IH]; [reflexivity|]. simpl. destruct (g x) eqn:E; simpl; [|exact IH].
  destruct (f x); now rewrite IH.
Qed.

Lemma existsb_app' {A} (f : A -> bool) l l' : existsb f (l ++ l') = existsb f l || existsb f l'.
Proof. apply existsb_app. Qed.

Lemma particle_filter_compose n1 n2 ps :
  particle_filter n2 (particle_filter n1 ps) = particle_filter (n1 ++ n2) ps.
Proof.
  unfold particle_filter. rewrite filter_filter. apply filter_ext. intros p.
  unfold mem_name. rewrite existsb_app. now rewrite negb_orb.
Qed.

Lemma interaction_filter_compose n1 n2 s1 s2 (fo : bool) inters :
  (fo = true -> forall i r, In i inters -> In r i -> r <> []) ->
  (let* out := interaction_filter n1 inters fo s1 in interaction_filter n2 out fo s2)
  = interaction_filter (n1 ++ n2) inters fo (s1 ++ s2).
Proof.
  intros H. destruct fo.
  - rewrite interaction_filter_first by exact (H eq_refl). cbn [rbind].
    rewrite interaction_filter_first.
    2:{ intros i r Hi Hr. apply in_map_iff in Hi. destruct Hi as (i0 & <- & Hi0).
        apply filter_In in Hr. destruct Hr as [Hr _]. eapply H; eauto. }
    rewrite interaction_filter_first by exact (H eq_refl). f_equal. rewrite map_map. apply map_ext. intros i.
    rewrite filter_filter. apply filter_ext. intros r. apply eq_true_iff_eq.
    rewrite andb_true_iff, !keep_first_b_spec. unfold survives_first. split.
    + intros (((a & b & -> & A1) & A2) & ((c & d & E & B1) & B2)). injection E as <- <-.
      split; [exists a, b; split; [reflexivity|]|]; rewrite in_app_iff; tauto.
    + intros ((a & b & -> & A1) & A2). rewrite in_app_iff in A1, A2.
      split; (split; [exists a, b; split; [reflexivity|]|]; tauto).
  - cbn [interaction_filter rbind]. f_equal. rewrite map_map. apply map_ext. intros i.
    rewrite filter_filter. apply filter_ext. intros r. apply eq_true_iff_eq.
    rewrite andb_true_iff, !keep_all_spec. unfold survives_all. split.
    + intros ((A1 & A2) & (B1 & B2)). split; [|rewrite in_app_iff; tauto].
      intros it Hit. rewrite in_app_iff. intros [X|X]; [eapply A1|eapply B1]; eauto.
    + intros (A1 & A2). rewrite in_app_iff in A2. split; (split; [|tauto]);
        intros it Hit X; apply (A1 it Hit); apply in_app_iff; auto.
Qed.

(* ---------- ordering ---------- *)
(* the documented order: non-increasing mass, ties by non-increasing name *)
Definition ge (a b : specie) : Prop :=
  (pmass a > pmass b)%Z \/ (pmass a = pmass b /\ (pid a = pid b \/ pname a = pname b \/ String.compare (pname b) (pname a) = Lt)).

Lemma tuple_lt_ge a b : tuple_lt a b = false -> ge a b.
Proof.
  unfold tuple_lt, ge. destruct (Z.eqb_spec (pmass a) (pmass b)) as [E|E].
  - destruct (Nat.eqb_spec (pid a) (pid b)); [tauto|]. intros H. right. split; [exact E|]. right.
    unfold String.ltb in H. destruct (String.compare (pname a) (pname b)) eqn:C; try discriminate.
    + left. now apply string_compare_eq.
    + right. rewrite string_compare_opp, C. reflexivity.
  - intros H. apply Z.ltb_ge in H. left. lia.
Qed.
Lemma tuple_lt_gt a b : tuple_lt a b = true -> ge b a.
Proof.
  unfold tuple_lt, ge. destruct (Z.eqb_spec (pmass a) (pmass b)) as [E|E].
  - destruct (Nat.eqb_spec (pid a) (pid b)); [discriminate|]. intros H. right. split; [lia|]. right. right.
    now apply ltb_lt.
  - intros H. apply Z.ltb_lt in H. left. lia.
Qed.

Lemma insert_perm x l : Permutation (insert_desc x l) (x :: l).
Proof.
  induction l as [|y l IH]; simpl; [auto|]. destruct (tuple_lt x y); [|auto].
  eapply perm_trans; [apply perm_skip, IH|]. apply perm_swap.
Qed.
Lemma orderer_perm l : Permutation (particle_orderer l) l.
Proof.
  unfold particle_orderer. induction l as [|x l IH]; simpl; [auto|].
  eapply perm_trans; [apply insert_perm|]. now apply perm_skip.
Qed.

Lemma insert_sorted x l : LocallySorted ge l -> LocallySorted ge (insert_desc x l).
Proof.
  induction 1 as [|y|y z l Hs IH Hyz]; simpl.
  - constructor.
  - destruct (tuple_lt x y) eqn:E; apply LSorted_consn; try apply LSorted_cons1.
    + now apply tuple_lt_gt.
    + now apply tuple_lt_ge.
  - destruct (tuple_lt x y) eqn:E.
    + simpl in IH. destruct (tuple_lt x z) eqn:E2; apply LSorted_consn; auto. now apply tuple_lt_gt.
    + apply LSorted_consn; [apply LSorted_consn; auto|]. now apply tuple_lt_ge.
Qed.
Lemma orderer_sorted l : LocallySorted ge (particle_orderer l).
Proof.
  unfold particle_orderer. induction l as [|x l IH]; simpl; [constructor|]. now apply insert_sorted.
Qed.

(* with unique names, ge is a total order *)
Definition uniq (l : list specie) : Prop :=
  forall a b, In a l -> In b l -> (pid a = pid b -> a = b) /\ (pname a = pname b -> a = b).

Definition gt' (a b : specie) : Prop :=
  (pmass a > pmass b)%Z \/ (pmass a = pmass b /\ String.compare (pname b) (pname a) = Lt).
Lemma gt'_trans a b c : gt' a b -> gt' b c -> gt' a c.
Proof.
  unfold gt'. intros [H|[H1 H2]] [K|[K1 K2]]; try (left; lia).
  right. split; [lia|]. eapply string_lt_trans; eauto.
Qed.
Lemma gt'_irrefl a : ~ gt' a a.
Proof. unfold gt'. rewrite string_compare_refl. intros [H|[_ H]]; [lia|discriminate]. Qed.

Lemma ge_gt' l a b : uniq l -> In a l -> In b l -> ge a b -> a = b \/ gt' a b.
Proof.
  intros U Ha Hb [H|(H1 & [H2|[H2|H2]])].
  - right. now left.
  - left. destruct (U a b Ha Hb) as [U1 U2]. auto.
  - left. destruct (U a b Ha Hb) as [U1 U2]. auto.
  - right. right. auto.
Qed.

Lemma strongly_sorted l l0 : uniq l0 -> incl l l0 -> LocallySorted ge l ->
  StronglySorted (fun a b => a = b \/ gt' a b) l.
Proof.
  intros U HI HS. apply Sorted_LocallySorted_iff in HS. revert HI.
  assert (HT : forall a b c, (a = b \/ gt' a b) -> (b = c \/ gt' b c) -> (a = c \/ gt' a c)).
  { intros a b c [->|H1] [->|H2]; auto. right. eapply gt'_trans; eauto. }
  intros HI. apply Sorted_StronglySorted; [exact HT|].
  induction HS as [|a l HS IH Hhd]; [constructor|]. constructor.
  - apply IH. intros x Hx. apply HI. now right.
  - destruct Hhd as [|b l Hab]; constructor.
    eapply ge_gt'; eauto; apply HI; simpl; auto.
Qed.

Lemma sorted_perm_unique l l' : Permutation l l' ->
  StronglySorted (fun a b => a = b \/ gt' a b) l -> StronglySorted (fun a b => a = b \/ gt' a b) l' -> l = l'.
Proof.
  revert l'; induction l as [|x l IH]; intros l' HP H1 H2.
  - apply Permutation_nil in HP. now subst.
  - destruct l' as [|y l']; [apply Permutation_sym, Permutation_nil in HP; discriminate|].
    inversion H1 as [|? ? S1 F1]; inversion H2 as [|? ? S2 F2]; subst.
    rewrite Forall_forall in F1, F2.
    assert (x = y) as ->.
    { assert (Hy : In y (x :: l)) by (eapply Permutation_in; [apply Permutation_sym; eauto|now left]).
      assert (Hx : In x (y :: l')) by (eapply Permutation_in; [eauto|now left]).
      destruct Hy as [->|Hy]; [reflexivity|]. destruct Hx as [->|Hx]; [reflexivity|].
      destruct (F1 y Hy) as [->|G1]; [reflexivity|]. destruct (F2 x Hx) as [->|G2]; [reflexivity|].
      exfalso. apply (gt'_irrefl x). eapply gt'_trans; eauto. }
    f_equal. apply IH; auto. eapply Permutation_cons_inv; eauto.
Qed.

Lemma orderer_canonical l l' : uniq l -> Permutation l l' -> particle_orderer l = particle_orderer l'.
Proof.
  intros U HP. apply sorted_perm_unique.
  - eapply perm_trans; [apply orderer_perm|]. eapply perm_trans; [exact HP|]. apply Permutation_sym, orderer_perm.
  - apply (strongly_sorted _ l U); [|apply orderer_sorted].
    intros x Hx. eapply Permutation_in; [apply orderer_perm|exact Hx].
  - apply (strongly_sorted _ l U); [|apply orderer_sorted].
    intros x Hx. eapply Permutation_in; [apply Permutation_sym, HP|].
    eapply Permutation_in; [apply orderer_perm|exact Hx].
Qed.

(* ---------- kinds ---------- *)
Lemma kind_spec k : (exists n, kind_accepted k = Ok n) <-> (k = KNone \/ exists n, k = KEnum n /\ n < 8).
Proof.
  destruct k as [|n|]; cbn [kind_accepted].
  - split; eauto.
  - destruct (existsb (Nat.eqb n) [6; 7; 1; 2; 4; 5; 0; 3]) eqn:E.
    + split; [intros _|eauto]. right. exists n. split; [reflexivity|].
      apply existsb_exists in E. destruct E as (x & Hx & Ex). apply Nat.eqb_eq in Ex. subst.
      simpl in Hx. lia.
    + split; [intros (m & Hm); discriminate|]. intros [H|(m & Hm & Hlt)]; [discriminate|].
      injection Hm as ->. exfalso. rewrite <- not_true_iff_false in E. apply E.
      apply existsb_exists. exists m. split; [|apply Nat.eqb_refl]. simpl. lia.
  - split; [intros (m & Hm); discriminate|]. intros [H|(m & Hm & Hlt)]; discriminate.
Qed.
