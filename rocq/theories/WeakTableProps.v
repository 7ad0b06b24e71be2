(* C150: the amplitudes of the neutrino collision integrals are the published ones. *)
From Coq Require Import Reals Lra Permutation.
From Verif Require Import Base CrossModel CrossProofs CrossProofs2 CrossProofs3 CrossProofs4 ParamsModel LibModel LibProofs Lib2Proofs MatrixModel Matrix2Proofs MatrixProps Lib3Proofs LedgerProps ShapeProofs WeakTableProofs.
Open Scope R_scope.
Local Notation length := List.length.

(* every collision integral of a neutrino *)
Theorem C150_table : forall ls ns t M out o c, incl ls SM_leptons -> incl ns SM_neutrinos -> In (t, M) (neutrino_interactions_M ls ns) ->
  cross_generating (species_of t) (tflags t) M = Ok out -> In o out -> In c SM_neutrinos -> particle o = sp c ->
  exists xs T, published xs T /\ stands_for o xs T /\ hd electron xs = c.
Proof.
  intros ls ns t M out o c Hl Hn Ht E Ho Hc Ep. unfold neutrino_interactions_M in Ht. apply in_app_or in Ht. destruct Ht as [Ht|Ht].
  - apply in_map_iff in Ht. destruct Ht as ((a, b) & Et & Hab). injection Et as <- <-. apply cwr2_in in Hab. destruct Hab as (l1 & l2 & -> & Hb).
    apply (scattering_table a b out o c); auto; apply Hn, in_or_app; right; [now left|exact Hb].
  - apply in_flat_map in Ht. destruct Ht as (l & Il & Ht). apply in_map_iff in Ht. destruct Ht as (n & Et & In_). injection Et as <- <-.
    apply (lepton_table n l out o c); auto.
Qed.
Print Assumptions C150_table.

(* ---------- every published reaction is there ---------- *)
Definition swap34 (xs : list lib) : list lib := match xs with [x1; x2; x3; x4] => [x1; x2; x4; x3] | _ => xs end.
Lemma sp_inj a b : In a (SM_leptons ++ SM_neutrinos) -> In b (SM_leptons ++ SM_neutrinos) -> sp a = sp b -> a = b.
Proof.
  intros Ha Hb E. apply (f_equal sid) in E. cbn [SM_leptons SM_neutrinos app In] in Ha, Hb.
  destruct Ha as [<-|[<-|[<-|[<-|[<-|[<-|[]]]]]]]; destruct Hb as [<-|[<-|[<-|[<-|[<-|[<-|[]]]]]]]; try reflexivity; discriminate E.
Qed.
Lemma lepton_neutrino x : In x SM_neutrinos -> In x SM_leptons -> False.
Proof. intros Ha Hl. assert (E : existsb (fun a => (sid (sp a) =? sid (sp x))%nat) SM_leptons = true) by (apply existsb_exists; exists x; split; [exact Hl|apply Nat.eqb_refl]). three Ha; discriminate E. Qed.
Lemma published_unique xs T xs' T' : published xs T -> published xs' T' -> map sp xs = map sp xs' \/ map sp xs = map sp (swap34 xs') -> xs = xs' /\ T = T'.
Proof.
  intros P P' E. destruct P as [a Ha|a b Ha Hb Hd|a b Ha Hb Hd|a l Ha Hl|a l Ha Hl]; destruct P' as [a' Ha'|a' b' Ha' Hb' Hd'|a' b' Ha' Hb' Hd'|a' l' Ha' Hl'|a' l' Ha' Hl'];
  cbn [map swap34] in E; destruct E as [E|E]; injection E; intros; clear E;
  repeat match goal with H : sp ?x = sp ?y |- _ => apply sp_inj in H; [|solve [auto using in_ln, in_ll]|solve [auto using in_ln, in_ll]]; subst end;
  first [split; reflexivity | exfalso; match goal with H : lname ?x <> lname ?x |- _ => now apply H end | exfalso; match goal with A : In ?x SM_neutrinos, B : In ?x SM_leptons |- _ => exact (lepton_neutrino x A B) end].
Qed.
Lemma stands_species o xs T : published xs T -> stands_for o xs T -> map ispecie (ireaction o) = map sp xs \/ map ispecie (ireaction o) = map sp (swap34 xs).
Proof.
  intros P H. assert (exists x1 x2 x3 x4, xs = [x1; x2; x3; x4]) as (x1 & x2 & x3 & x4 & ->) by (destruct P; eauto 6).
  unfold stands_for in H. destruct (String.eqb _ _); [destruct H as ((Q & _) & _); auto|]. destruct H as [((Q & _) & _)|((Q & _) & _)]; auto.
Qed.

Definition shows (t : tmpl) (xs : list lib) : bool :=
  existsb (fun r => (Nat.eqb (length r) 4 && forallb (fun ab => specie_eqb (fst ab) (snd ab)) (combine (map ispecie r) (map sp xs)))%bool) (reactions_of t).
Lemma shows_reaction t xs : length xs = 4%nat -> shows t xs = true -> exists r, In r (reactions_of t) /\ map ispecie r = map sp xs.
Proof.
  intros HL H. apply existsb_exists in H. destruct H as (r & Hr & H). exists r. split; [exact Hr|]. apply andb_prop in H. destruct H as [H4 H]. apply Nat.eqb_eq in H4.
  assert (EL : length (map ispecie r) = length (map sp xs)) by (rewrite !map_length; congruence). revert EL H. generalize (map ispecie r) as u, (map sp xs) as v. clear.
  induction u as [|x u IH]; intros [|y v] EL H; try discriminate; [reflexivity|]. cbn [combine forallb fst snd] in H. apply andb_prop in H. destruct H as [E H]. apply specie_eqb_eq in E. injection EL as EL. rewrite E. f_equal. now apply IH.
Qed.
Lemma scattering_shows a b : In a SM_neutrinos -> In b SM_neutrinos -> lname a <> lname b ->
  (shows (neutrino_scattering a b) [a; b; a; b] || shows (neutrino_scattering a b) [a; b; b; a] = true)%bool /\ shows (neutrino_scattering a b) [a; a; b; b] = true /\
  (shows (neutrino_scattering b a) [a; b; a; b] || shows (neutrino_scattering b a) [a; b; b; a] = true)%bool /\ shows (neutrino_scattering b a) [a; a; b; b] = true.
Proof. intros Ha Hb Hd. three Ha; three Hb; try (now destruct Hd); vm_compute; auto. Qed.
Lemma same_shows a : In a SM_neutrinos -> shows (neutrino_scattering a a) [a; a; a; a] = true.
Proof. intros Ha. three Ha; vm_compute; reflexivity. Qed.
Lemma lepton_shows a l : In a SM_neutrinos -> In l SM_leptons ->
  (shows (neutrinos_to_leptons a l) [a; l; a; l] || shows (neutrinos_to_leptons a l) [a; l; l; a] = true)%bool /\ shows (neutrinos_to_leptons a l) [a; a; l; l] = true.
Proof. intros Ha Hl. three Ha; three Hl; vm_compute; auto. Qed.

Lemma pair_listed {A} (l : list A) a b : In a l -> In b l -> In (a, b) (cwr2 l) \/ In (b, a) (cwr2 l).
Proof.
  intros Ha Hb. apply in_split in Ha. destruct Ha as (l1 & l2 & ->). apply in_app_or in Hb. destruct Hb as [Hb|Hb].
  - right. apply in_split in Hb. destruct Hb as (k1 & k2 & ->). apply cwr2_in. exists k1, (k2 ++ a :: l2). split; [now rewrite <- app_assoc|]. right. apply in_or_app. right. now left.
  - left. apply cwr2_in. exists l1, l2. auto.
Qed.
Lemma found ls ns t M xs T : incl ls SM_leptons -> incl ns SM_neutrinos -> published xs T -> In (t, M) (neutrino_interactions_M ls ns) ->
  (shows t xs = true \/ shows t (swap34 xs) = true) ->
  exists out o, cross_generating (species_of t) (tflags t) M = Ok out /\ In o out /\ stands_for o xs T.
Proof.
  intros Hl Hn P Ht HS.
  assert (H : exists out, cross_generating (species_of t) (tflags t) M = Ok out /\ forall r, In r (reactions_of t) -> exists o, In o out /\ map ispecie (ireaction o) = map ispecie r /\ particle o = hd (particle o) (map ispecie (ireaction o))).
  { assert (HI : flags_fit t /\ told_apart (parts t) /\ length (parts t) = 4%nat /\ Forall proper M).
    { unfold neutrino_interactions_M in Ht. apply in_app_or in Ht. destruct Ht as [Ht|Ht].
      - apply in_map_iff in Ht. destruct Ht as ((a, b) & Et & Hab). injection Et as <- <-. apply cwr2_in in Hab. destruct Hab as (l1 & l2 & -> & Hb).
        split; [split; reflexivity|]. split; [|split; [reflexivity|apply scattering_proper]]. apply SM_told. intros x Hx. apply in_ln, Hn, in_or_app. right. cbn in Hx, Hb |- *. intuition (subst; auto).
      - apply in_flat_map in Ht. destruct Ht as (l & Il & Ht). apply in_map_iff in Ht. destruct Ht as (n & Et & In_). injection Et as <- <-.
        split; [split; reflexivity|]. split; [|split; [reflexivity|apply annihilation_proper]]. apply SM_told. intros x Hx. cbn in Hx. destruct Hx as [<-|[<-|[<-|[<-|[]]]]]; auto using in_ln, in_ll. }
    destruct HI as (I1 & I2 & I3 & I4). destruct (integrals_amplitude t M I1 I2 I3 I4) as (out & E & _ & _ & Hr & HA). exists out. split; [exact E|].
    intros r Ir. destruct (Hr r Ir) as (o & Io & _ & Es). destruct (HA o Io) as (_ & _ & Hp & _). exists o. auto. }
  destruct H as (out & E & HR). 
  assert (HX : exists x1 x2 x3 x4, xs = [x1; x2; x3; x4] /\ In x1 SM_neutrinos) by (destruct P; eauto 8). destruct HX as (x1 & x2 & x3 & x4 & -> & I1).
  assert (HQ : exists r, In r (reactions_of t) /\ (map ispecie r = map sp [x1; x2; x3; x4] \/ map ispecie r = map sp (swap34 [x1; x2; x3; x4]))).
  { destruct HS as [HS|HS]; apply shows_reaction in HS; try reflexivity; destruct HS as (r & Ir & Er); exists r; auto. }
  destruct HQ as (r & Ir & Er). destruct (HR r Ir) as (o & Io & Eo & Hp). rewrite <- Eo in Er. exists out, o. split; [exact E|]. split; [exact Io|].
  assert (EP : particle o = sp x1) by (rewrite Hp; destruct Er as [-> | ->]; reflexivity).
  destruct (C150_table ls ns t M out o x1 Hl Hn Ht E Io I1 EP) as (xs' & T' & P' & S' & _).
  assert (EX : [x1; x2; x3; x4] = xs' /\ T = T').
  { apply (published_unique _ _ _ _ P P'). pose proof (stands_species o xs' T' P' S') as Q.
    assert (exists y1 y2 y3 y4, xs' = [y1; y2; y3; y4]) as (y1 & y2 & y3 & y4 & ->) by (destruct P'; eauto 6). cbn [swap34 map] in *.
    destruct Er as [Er|Er], Q as [Q|Q]; rewrite Er in Q; injection Q; intros; [left|right|right|left]; congruence. }
  destruct EX as (<- & <-). exact S'.
Qed.

Theorem C150_complete : forall ls ns xs T, incl ls SM_leptons -> incl ns SM_neutrinos -> published xs T -> incl xs (ls ++ ns) ->
  exists t M out o, In (t, M) (neutrino_interactions_M ls ns) /\ cross_generating (species_of t) (tflags t) M = Ok out /\ In o out /\ stands_for o xs T.
Proof.
  intros ls ns xs T Hl Hn P HI.
  assert (N : forall a, In a SM_neutrinos -> In a xs -> In a ns).
  { intros a Ha Hx. apply HI, in_app_or in Hx. destruct Hx as [Hx|Hx]; [|exact Hx]. exfalso. eapply lepton_neutrino; eauto. }
  assert (L : forall a, In a SM_leptons -> In a xs -> In a ls).
  { intros a Ha Hx. apply HI, in_app_or in Hx. destruct Hx as [Hx|Hx]; [exact Hx|]. exfalso. eapply lepton_neutrino; eauto. }
  assert (H : exists t M, In (t, M) (neutrino_interactions_M ls ns) /\ (shows t xs = true \/ shows t (swap34 xs) = true)).
  { unfold neutrino_interactions_M. destruct P as [a Ha|a b Ha Hb Hd|a b Ha Hb Hd|a l Ha Hl'|a l Ha Hl'].
    - exists (neutrino_scattering a a), scattering_Ms. split; [|left; now apply same_shows]. apply in_or_app. left. apply in_map_iff. exists (a, a). split; [reflexivity|].
      destruct (pair_listed ns a a) as [H|H]; auto; apply N; cbn; auto.
    - destruct (scattering_shows a b Ha Hb Hd) as (S1 & S2 & S3 & S4). apply orb_prop in S1, S3.
      destruct (pair_listed ns a b) as [H|H]; [apply N; cbn; auto|apply N; cbn; auto| |].
      + exists (neutrino_scattering a b), scattering_Ms. split; [|exact S1]. apply in_or_app. left. apply in_map_iff. now exists (a, b).
      + exists (neutrino_scattering b a), scattering_Ms. split; [|exact S3]. apply in_or_app. left. apply in_map_iff. now exists (b, a).
    - destruct (scattering_shows a b Ha Hb Hd) as (S1 & S2 & S3 & S4).
      destruct (pair_listed ns a b) as [H|H]; [apply N; cbn; auto|apply N; cbn; auto| |].
      + exists (neutrino_scattering a b), scattering_Ms. split; [|left; exact S2]. apply in_or_app. left. apply in_map_iff. now exists (a, b).
      + exists (neutrino_scattering b a), scattering_Ms. split; [|left; exact S4]. apply in_or_app. left. apply in_map_iff. now exists (b, a).
    - exists (neutrinos_to_leptons a l), (annihilation_Ms (g_L_of l a)). split; [|left; now apply lepton_shows]. apply in_or_app. right. apply in_flat_map. exists l. split; [apply L; cbn; auto|].
      apply in_map_iff. exists a. split; [reflexivity|apply N; cbn; auto].
    - exists (neutrinos_to_leptons a l), (annihilation_Ms (g_L_of l a)). destruct (lepton_shows a l Ha Hl') as (S1 & _). apply orb_prop in S1. split; [|exact S1]. apply in_or_app. right. apply in_flat_map. exists l. split; [apply L; cbn; auto|].
      apply in_map_iff. exists a. split; [reflexivity|apply N; cbn; auto]. }
  destruct H as (t & M & Ht & HS). destruct (found ls ns t M xs T Hl Hn P Ht HS) as (out & o & E & Io & S). exists t, M, out, o. auto.
Qed.
Print Assumptions C150_complete.

(* ---------- once ---------- *)
Definition ids (t : tmpl) : list nat := map (fun p => sid (sp p)) (parts t).
Definition all_templates : list tmpl :=
  map (fun ab => neutrino_scattering (fst ab) (snd ab)) (list_prod SM_neutrinos SM_neutrinos) ++ map (fun nl => neutrinos_to_leptons (fst nl) (snd nl)) (list_prod SM_neutrinos SM_leptons).
Definition meet (t t' : tmpl) : bool := existsb (fun r => existsb (fun r' => same_integral (of_reaction r) (of_reaction r')) (reactions_of t')) (reactions_of t).
Lemma meet_check : forallb (fun t => forallb (fun t' => implb (meet t t') (counter_eqb (ids t) (ids t'))) all_templates) all_templates = true.
Proof. vm_compute. reflexivity. Qed.
Lemma listed_templates ls ns t M : incl ls SM_leptons -> incl ns SM_neutrinos -> In (t, M) (neutrino_interactions_M ls ns) ->
  (exists a b, In (a, b) (cwr2 ns) /\ In a SM_neutrinos /\ In b SM_neutrinos /\ t = neutrino_scattering a b) \/ (exists n l, In n SM_neutrinos /\ In l SM_leptons /\ t = neutrinos_to_leptons n l).
Proof.
  intros Hl Hn Ht. unfold neutrino_interactions_M in Ht. apply in_app_or in Ht. destruct Ht as [Ht|Ht].
  - apply in_map_iff in Ht. destruct Ht as ((a, b) & Et & Hab). injection Et as <- <-. left. exists a, b. split; [exact Hab|]. apply cwr2_in in Hab. destruct Hab as (l1 & l2 & -> & Hb).
    split; [apply Hn, in_or_app; right; now left|]. split; [apply Hn, in_or_app; right; exact Hb|reflexivity].
  - apply in_flat_map in Ht. destruct Ht as (l & Il & Ht). apply in_map_iff in Ht. destruct Ht as (n & Et & In_). injection Et as <- <-. right. exists n, l. auto.
Qed.
Lemma id_eq a b : In a (SM_leptons ++ SM_neutrinos) -> In b (SM_leptons ++ SM_neutrinos) -> sid (sp a) = sid (sp b) -> a = b.
Proof. intros Ha Hb E. apply sp_inj; auto. apply (SM_told (SM_leptons ++ SM_neutrinos) (incl_refl _)); auto. Qed.
Lemma perm_pair (u v x y : nat) : Permutation [u; v; u; v] [x; y; x; y] -> u = x /\ v = y \/ u = y /\ v = x.
Proof.
  intros P. pose proof (Permutation_in u P ltac:(cbn; auto)) as I1. pose proof (Permutation_in v P ltac:(cbn; auto)) as I2.
  pose proof (Permutation_in x (Permutation_sym P) ltac:(cbn; auto)) as I3. pose proof (Permutation_in y (Permutation_sym P) ltac:(cbn; auto)) as I4.
  cbn in I1, I2, I3, I4. lia.
Qed.
Lemma perm_pair2 (u v x y : nat) : Permutation [u; u; v; v] [x; x; y; y] -> u = x /\ v = y \/ u = y /\ v = x.
Proof.
  intros P. pose proof (Permutation_in u P ltac:(cbn; auto)) as I1. pose proof (Permutation_in v P ltac:(cbn; auto)) as I2.
  pose proof (Permutation_in x (Permutation_sym P) ltac:(cbn; auto)) as I3. pose proof (Permutation_in y (Permutation_sym P) ltac:(cbn; auto)) as I4.
  cbn in I1, I2, I3, I4. lia.
Qed.
Lemma listed_hyps ls ns t M : incl ls SM_leptons -> incl ns SM_neutrinos -> In (t, M) (neutrino_interactions_M ls ns) -> flags_fit t /\ told_apart (parts t) /\ length (parts t) = 4%nat /\ Forall proper M.
Proof.
  intros Hl Hn Ht. unfold neutrino_interactions_M in Ht. apply in_app_or in Ht. destruct Ht as [Ht|Ht].
  - apply in_map_iff in Ht. destruct Ht as ((a, b) & Et & Hab). injection Et as <- <-. apply cwr2_in in Hab. destruct Hab as (l1 & l2 & -> & Hb).
    split; [split; reflexivity|]. split; [|split; [reflexivity|apply scattering_proper]]. apply SM_told. intros x Hx. apply in_ln, Hn, in_or_app. right. cbn in Hx, Hb |- *. intuition (subst; auto).
  - apply in_flat_map in Ht. destruct Ht as (l & Il & Ht). apply in_map_iff in Ht. destruct Ht as (n & Et & In_). injection Et as <- <-.
    split; [split; reflexivity|]. split; [|split; [reflexivity|apply annihilation_proper]]. apply SM_told. intros x Hx. cbn in Hx. destruct Hx as [<-|[<-|[<-|[<-|[]]]]]; auto using in_ln, in_ll.
Qed.
(* two integrals of one species with the same species on both sides are the same
   integral of the same interaction *)
Theorem C150_once : forall ls ns t M out o t' M' out' o', NoDup ns -> incl ls SM_leptons -> incl ns SM_neutrinos ->
  In (t, M) (neutrino_interactions_M ls ns) -> cross_generating (species_of t) (tflags t) M = Ok out -> In o out ->
  In (t', M') (neutrino_interactions_M ls ns) -> cross_generating (species_of t') (tflags t') M' = Ok out' -> In o' out' ->
  similar o o' -> t = t' /\ ForallOrdPairs (fun i j => ~ similar i j) out.
Proof.
  intros ls ns t M out o t' M' out' o' ND Hl Hn Ht E Ho Ht' E' Ho' HS.
  assert (HH : forall t M out o, In (t, M) (neutrino_interactions_M ls ns) -> cross_generating (species_of t) (tflags t) M = Ok out -> In o out ->
    ForallOrdPairs (fun i j => ~ similar i j) out /\ exists r, In r (reactions_of t) /\ header o = header (of_reaction r)).
  { clear -Hl Hn. intros t M out o Ht E Ho. destruct (listed_hyps ls ns t M Hl Hn Ht) as (I1 & I2 & I3 & I4).
    destruct (integrals_amplitude t M I1 I2 I3 I4) as (out' & E' & HO & Hh & _). rewrite E in E'. injection E' as <-. auto. }
  destruct (HH t M out o Ht E Ho) as (HO & r & Ir & Er). destruct (HH t' M' out' o' Ht' E' Ho') as (_ & r' & Ir' & Er').
  split; [|exact HO].
  assert (HM : meet t t' = true).
  { apply existsb_exists. exists r. split; [exact Ir|]. apply existsb_exists. exists r'. split; [exact Ir'|]. apply same_integral_spec. apply (similar_header o o'); auto. }
  assert (HA : forall t M, In (t, M) (neutrino_interactions_M ls ns) -> In t all_templates).
  { clear -Hl Hn. intros t M Ht. apply in_or_app. destruct (listed_templates ls ns t M Hl Hn Ht) as [(a & b & _ & Ha & Hb & ->)|(n & l & Ha & Hb & ->)].
    - left. apply in_map_iff. exists (a, b). split; [reflexivity|]. now apply in_prod.
    - right. apply in_map_iff. exists (n, l). split; [reflexivity|]. now apply in_prod. }
  pose proof meet_check as C. rewrite forallb_forall in C. specialize (C t (HA t M Ht)). rewrite forallb_forall in C. specialize (C t' (HA t' M' Ht')). rewrite HM in C. cbn [implb] in C. apply counter_eqb_spec in C.
  destruct (listed_templates ls ns t M Hl Hn Ht) as [(a & b & Hab & Ha & Hb & ->)|(n & l & Ha & Hb & ->)];
  destruct (listed_templates ls ns t' M' Hl Hn Ht') as [(c & d & Hcd & Hc & Hd & ->)|(n' & l' & Hc & Hd & ->)]; unfold ids in C; cbn in C.
  - apply perm_pair in C. destruct C as [(C1 & C2)|(C1 & C2)]; apply id_eq in C1; apply id_eq in C2; auto using in_ln; subst; [reflexivity|].
    assert (DC : forall x y : lib, {x = y} + {x <> y} -> In (x, y) (cwr2 ns) -> In (y, x) (cwr2 ns) -> x = y).
    { intros x y [e|e] I J; [exact e|]. exfalso. assert (In x ns /\ In y ns) as (Ix & Iy) by (apply cwr2_in in I; destruct I as (l1 & l2 & -> & I); split; apply in_or_app; right; [now left|exact I]).
      destruct (cwr2_once ns x y ND Ix Iy e) as [(_ & X)|(_ & X)]; contradiction. }
    assert (D : {d = c} + {d <> c}) by (destruct (Nat.eq_dec (sid (sp d)) (sid (sp c))) as [e|e]; [left; apply id_eq; auto using in_ln|right; congruence]).
    now rewrite (DC d c D Hab Hcd).
  - exfalso. pose proof (Permutation_in (sid (sp l')) (Permutation_sym C) ltac:(cbn; auto)) as I. cbn in I.
    destruct I as [I|[I|[I|[I|[]]]]]; apply id_eq in I; auto using in_ln, in_ll; subst; (eapply lepton_neutrino; [|exact Hd]); assumption.
  - exfalso. pose proof (Permutation_in (sid (sp l)) C ltac:(cbn; auto)) as I. cbn in I.
    destruct I as [I|[I|[I|[I|[]]]]]; apply id_eq in I; auto using in_ln, in_ll; subst; (eapply lepton_neutrino; [|exact Hb]); assumption.
  - apply perm_pair2 in C. destruct C as [(C1 & C2)|(C1 & C2)]; apply id_eq in C1; apply id_eq in C2; auto using in_ln, in_ll; subst; [reflexivity|].
    exfalso. eapply lepton_neutrino; [exact Ha|exact Hd].
Qed.
Print Assumptions C150_once.

Definition three_neutrinos := neutrino_interactions_M SM_leptons SM_neutrinos.
Example C150_ex : length three_neutrinos = 15%nat /\ published [neutrino_e; neutrino_mu; neutrino_e; neutrino_mu] two_flavours /\
  published [neutrino_mu; neutrino_mu; electron; electron] (pair_production (gL neutrino_mu electron) gR (mass electron)) /\
  gL neutrino_mu electron = -2688 / 10000 /\ gL neutrino_e electron = 7312 / 10000.
Proof.
  split; [reflexivity|]. split; [apply pub_two; [nu|nu|discriminate]|]. split; [apply pub_pair; nu|]. unfold gL, sin2w. cbn. split; lra.
Qed.
