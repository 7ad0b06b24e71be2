From Coq Require Import Permutation.
From Verif Require Import Base CrossModel CrossProofs CrossProofs2 LibModel.

(* ------------------------------------------------------------------ *)
(* Specification: sums over the sides of an interaction *)
Fixpoint tally (w : lib -> Z) (ps : list lib) (fs : list bool) : Z :=
  match ps, fs with
  | p :: ps', f :: fs' => ((if f then - w p else w p) + tally w ps' fs')%Z
  | _, _ => 0%Z
  end.
Definition balanced (w : lib -> Z) (t : tmpl) : Prop :=
  tally w (fst (tparts t)) (fst (tflags t)) = tally w (snd (tparts t)) (snd (tflags t)).
Definition flags_fit (t : tmpl) : Prop := flags_ok (species_of t) (tflags t).
Definition parts (t : tmpl) : list lib := fst (tparts t) ++ snd (tparts t).
(* particles are told apart by identity and by name *)
Definition told_apart (l : list lib) : Prop :=
  forall x y, In x l -> In y l -> sid (sp x) = sid (sp y) \/ lname x = lname y -> sp x = sp y.

Lemma items_from_specie sd ps : forall s fs it, In it (items_from sd s ps fs) -> In (ispecie it) ps.
Proof.
  induction ps as [|p ps IH]; intros s fs it H; [destruct H|]. destruct fs as [|f fs]; [destruct H|].
  destruct H as [<-|H]; [now left|right; eauto].
Qed.
Lemma titems_specie t it : In it (titems t) -> exists p, In p (parts t) /\ ispecie it = sp p.
Proof.
  unfold titems, base_items. intros H. apply in_app_or in H.
  assert (G : In (ispecie it) (map sp (fst (tparts t)) ++ map sp (snd (tparts t)))).
  { apply in_or_app. destruct H as [H|H]; apply items_from_specie in H; auto. }
  rewrite <- map_app in G. apply in_map_iff in G. destruct G as (p & E & I). exists p. split; [exact I|now symmetry].
Qed.
Lemma told_distinct t : told_apart (parts t) -> distinct_species (titems t).
Proof.
  intros H x y Hx Hy E. destruct (titems_specie t x Hx) as (p & Ip & Ep). destruct (titems_specie t y Hy) as (q & Iq & Eq).
  rewrite Ep, Eq in *. now apply H.
Qed.
Lemma told_incl l l' : incl l' l -> told_apart l -> told_apart l'.
Proof. intros I H x y Hx Hy. apply H; auto. Qed.

Lemma reactions_of_ok t : flags_fit t -> told_apart (parts t) -> reactions_map (species_of t) (tflags t) = Ok (reactions_of t).
Proof.
  intros HF HD. destruct (reactions_map_spec _ _ HF (told_distinct t HD)) as (rs & E & _). unfold reactions_of. now rewrite E.
Qed.

Lemma side_charge_items (q : specie -> Z) sd w ps : (forall p, In p ps -> q (sp p) = w p) -> forall s fs,
  side_charge q (items_from sd s (map sp ps) fs) = tally w ps fs.
Proof.
  intros H s fs. revert s fs. induction ps as [|p ps IH]; intros s fs; [reflexivity|]. destruct fs as [|f fs]; [reflexivity|].
  cbn [map items_from tally]. unfold side_charge in *. cbn [map fold_right anti ispecie].
  rewrite IH by (intros; apply H; now right). rewrite (H p) by now left. reflexivity.
Qed.
Lemma balanced_conserved w q t : (forall p, In p (parts t) -> q (sp p) = w p) -> (balanced w t <-> conserved q (titems t)).
Proof.
  intros H. unfold balanced, conserved, titems, base_items. unfold species_of. cbn [fst snd].
  destruct (lefts_rights (items_from (-1) 0 (map sp (fst (tparts t))) (fst (tflags t)))
              (items_from 1 (length (map sp (fst (tparts t)))) (map sp (snd (tparts t))) (snd (tflags t)))) as (-> & ->).
  - intros x Hx. now apply items_from_side in Hx.
  - intros x Hx. now apply items_from_side in Hx.
  - rewrite (side_charge_items q _ w) by (intros; apply H, in_or_app; auto). rewrite (side_charge_items q _ w) by (intros; apply H, in_or_app; auto). tauto.
Qed.

(* every reaction of an interaction has the imbalance of the interaction *)
Lemma generated_conserve w q t r : flags_fit t -> told_apart (parts t) ->
  (forall p, In p (parts t) -> q (sp p) = w p) -> (forall p, In p (parts t) -> majorana (sp p) = true -> w p = 0%Z) ->
  In r (reactions_of t) -> (balanced w t <-> conserved q r).
Proof.
  intros HF HD HQ HM Hr.
  assert (C := shape_conserves _ q r (base_two_sided (species_of t) (tflags t)) (reactions_sound _ _ _ r HF (told_distinct t HD) (reactions_of_ok t HF HD) Hr)).
  rewrite (balanced_conserved w q t HQ). unfold conserved, titems.
  assert (M : forall it, In it (base_items (species_of t) (tflags t)) -> majorana (ispecie it) = true -> q (ispecie it) = 0%Z).
  { intros it I. destruct (titems_specie t it I) as (p & Ip & ->). intros M. rewrite HQ by auto. now apply HM. }
  specialize (C M). lia.
Qed.

(* which particles lead a reaction *)
Lemma leads_only t r : flags_fit t -> told_apart (parts t) -> In r (reactions_of t) ->
  exists f h rest, In f (titems t) /\ r = h :: rest /\ h = to_side (-1) f /\ anti h = false.
Proof.
  intros HF HD Hr. destruct (reactions_sound _ _ _ r HF (told_distinct t HD) (reactions_of_ok t HF HD) Hr)
    as (sd & h & tl & rhs & HS & HP & -> & _ & S1 & _ & A & _).
  assert (Ih : In h (placed (titems t) sd)) by (eapply Permutation_in; [exact HP|now left]).
  unfold placed in Ih. apply in_map_iff in Ih. destruct Ih as (f & Ef & If).
  exists f, h, (tl ++ rhs). split; [exact If|]. split; [reflexivity|]. split; [|exact A].
  assert (Sh := S1 h (or_introl eq_refl)). rewrite <- Ef in Sh.
  rewrite to_side_side in Sh; [|apply HS|now apply (base_two_sided (species_of t) (tflags t))]. now rewrite <- Sh.
Qed.

Definition sd_of (ks : list nat) (k : nat) : Z := if existsb (Nat.eqb k) ks then 1%Z else (-1)%Z.
Lemma sd_of_sides ks : sides (sd_of ks).
Proof. intros k. unfold sd_of. destruct (existsb _ _); auto. Qed.

Lemma placed_rights base sd : two_sided base -> sides sd -> rights (placed base sd) = map (to_side 1) (filter (fun it => (sd (index it) =? 1)%Z) base).
Proof.
  intros H2 HS. induction base as [|x l IH]; [reflexivity|]. cbn [placed map]. unfold rights in *. cbn [filter map].
  rewrite to_side_side by (try apply HS; apply H2; now left). specialize (IH (fun it I => H2 it (or_intror I))). unfold placed in IH.
  destruct (HS (index x)) as [E|E]; rewrite E; cbn [Z.eqb Pos.eqb filter map]; now rewrite IH.
Qed.
Lemma placed_lefts base sd : two_sided base -> sides sd -> lefts (placed base sd) = map (to_side (-1)) (filter (fun it => (sd (index it) =? -1)%Z) base).
Proof.
  intros H2 HS. induction base as [|x l IH]; [reflexivity|]. cbn [placed map]. unfold lefts in *. cbn [filter map].
  rewrite to_side_side by (try apply HS; apply H2; now left). specialize (IH (fun it I => H2 it (or_intror I))). unfold placed in IH.
  destruct (HS (index x)) as [E|E]; rewrite E; cbn [Z.eqb Pos.eqb filter map]; now rewrite IH.
Qed.

Lemma filter_unique {A} (g : A -> nat) (l : list A) x : NoDup (map g l) -> In x l -> filter (fun y => (g y =? g x)%nat) l = [x].
Proof.
  induction l as [|y l IH]; intros N I; [destruct I|]. cbn [map] in N. inversion N as [|? ? N1 N2]; subst. cbn [filter]. destruct I as [<-|I].
  - rewrite Nat.eqb_refl. f_equal. apply filter_none. intros z Hz. apply Nat.eqb_neq. intros E. apply N1. rewrite <- E. now apply in_map.
  - destruct (Nat.eqb_spec (g y) (g x)) as [E|E]; [exfalso; apply N1; rewrite E; now apply in_map|]. now apply IH.
Qed.
Lemma titems_nodup t : flags_fit t -> NoDup (map index (titems t)).
Proof. intros HF. unfold titems. rewrite base_index by exact HF. apply seq_NoDup. Qed.
Lemma mass_sum_map s l : mass_sum (map (to_side s) l) = mass_sum l.
Proof. unfold mass_sum. rewrite map_map. f_equal. apply map_ext. intros x. now rewrite to_side_specie. Qed.
Lemma mass_sum_app a b : mass_sum (a ++ b) = (mass_sum a + mass_sum b)%Z.
Proof. unfold mass_sum. rewrite map_app. induction (map _ a) as [|x l IH]; cbn [fold_right app]; [lia|]. rewrite IH. lia. Qed.
Lemma mass_sum_partition f (l : list item) : mass_sum l = (mass_sum (filter f l) + mass_sum (filter (fun x => negb (f x)) l))%Z.
Proof. rewrite (mass_sum_perm _ _ (partition_perm f l)). apply mass_sum_app. Qed.

(* a decay product that crosses into a particle gets an integral of creation *)
Lemma replenish t par f : flags_fit t -> told_apart (parts t) -> In par (titems t) -> In f (titems t) -> index f <> index par ->
  2 < length (titems t) -> anti (to_side (-1) f) = false -> (mass_sum (titems t) < 2 * smass (ispecie par))%Z ->
  exists r, In r (reactions_of t) /\ hd_error r = Some (to_side (-1) f) /\ rights r = [to_side 1 par].
Proof.
  intros HF HD Ip If Hn HL Ha HM. assert (H2 := base_two_sided (species_of t) (tflags t)). fold (titems t) in H2.
  set (sd := sd_of [index par]).
  assert (Sp : forall it, (sd (index it) =? 1)%Z = (index it =? index par)).
  { intros it. unfold sd, sd_of. cbn [existsb]. destruct (index it =? index par); reflexivity. }
  assert (Sl : forall it, (sd (index it) =? -1)%Z = negb (index it =? index par)).
  { intros it. unfold sd, sd_of. cbn [existsb]. destruct (index it =? index par); reflexivity. }
  assert (ER : rights (placed (titems t) sd) = [to_side 1 par]).
  { rewrite placed_rights by (exact H2 || apply sd_of_sides). rewrite (filter_ext _ _ Sp).
    rewrite (filter_unique index) by (auto using titems_nodup). reflexivity. }
  assert (EL : lefts (placed (titems t) sd) = map (to_side (-1)) (filter (fun it => negb (index it =? index par)) (titems t))).
  { rewrite placed_lefts by (exact H2 || apply sd_of_sides). now rewrite (filter_ext _ _ Sl). }
  assert (EM : mass_sum (filter (fun it => negb (index it =? index par)) (titems t)) = (mass_sum (titems t) - smass (ispecie par))%Z).
  { rewrite (mass_sum_partition (fun it => index it =? index par) (titems t)), (filter_unique index) by (auto using titems_nodup).
    assert (M1 : mass_sum [par] = smass (ispecie par)) by (unfold mass_sum; cbn [map fold_right]; lia). lia. }
  assert (EN : S (length (filter (fun it => negb (index it =? index par)) (titems t))) = length (titems t)).
  { rewrite (Permutation_length (partition_perm (fun it => index it =? index par) (titems t))), app_length, (filter_unique index) by (auto using titems_nodup). reflexivity. }
  destruct (reactions_complete (species_of t) (tflags t) (reactions_of t) sd f HF (told_distinct t HD) (reactions_of_ok t HF HD)) as (r & Ir & Eh & HP).
  - apply sd_of_sides.
  - exact If.
  - apply Z.eqb_eq. rewrite Sl. now rewrite (proj2 (Nat.eqb_neq _ _) Hn).
  - exists par. split; [exact Ip|]. apply Z.eqb_eq. rewrite Sp. apply Nat.eqb_refl.
  - exact Ha.
  - fold (titems t). rewrite EL. intros (x & Ex & _). apply (f_equal (@length item)) in Ex. rewrite map_length in Ex. change (length [x]) with 1 in Ex. lia.
  - fold (titems t). rewrite EL, ER. intros (x & Ex & Hx). injection Ex as <-. rewrite to_side_specie in Hx. rewrite mass_sum_map, EM in Hx. lia.
  - exists r. split; [exact Ir|]. split; [exact Eh|]. apply (filter_perm (fun it => (iside it =? 1)%Z)) in HP. fold (titems t) in HP. fold (rights r) in HP. fold (rights (placed (titems t) sd)) in HP.
    rewrite ER in HP. now apply Permutation_sym, Permutation_length_1_inv in HP.
Qed.

(* with four particles every item that crosses into a particle leads an integral *)
Lemma leads_four t f : flags_fit t -> told_apart (parts t) -> length (titems t) = 4 -> In f (titems t) -> anti (to_side (-1) f) = false ->
  exists r, In r (reactions_of t) /\ hd_error r = Some (to_side (-1) f).
Proof.
  intros HF HD H4 If Ha. assert (H2 := base_two_sided (species_of t) (tflags t)). fold (titems t) in H2.
  assert (HI : map index (titems t) = [0; 1; 2; 3]).
  { unfold titems. rewrite base_index by exact HF. replace (length (fst (species_of t)) + length (snd (species_of t))) with 4; [reflexivity|].
    rewrite <- H4. unfold titems. now apply base_length. }
  assert (G : exists ks, length ks = 2 /\ NoDup ks /\ incl ks [0; 1; 2; 3] /\ ~ In (index f) ks).
  { assert (J : In (index f) [0; 1; 2; 3]) by (rewrite <- HI; now apply in_map).
    destruct J as [J|[J|[J|[J|[]]]]]; rewrite <- J;
      [exists [1; 2]|exists [0; 2]|exists [0; 1]|exists [0; 1]]; (split; [reflexivity|]; split; [repeat constructor; cbn; intuition lia|]; split; [intros z; cbn; tauto|cbn; intuition lia]). }
  destruct G as (ks & L2 & N2 & I2 & NF). set (sd := sd_of ks).
  assert (HL : forall b, length (filter (fun it => Bool.eqb (existsb (Nat.eqb (index it)) ks) b) (titems t)) = 2).
  { intros b. rewrite <- (map_length index).
    assert (EF : forall l, map index (filter (fun it => Bool.eqb (existsb (Nat.eqb (index it)) ks) b) l) = filter (fun k => Bool.eqb (existsb (Nat.eqb k) ks) b) (map index l)).
    { induction l as [|x l IH]; [reflexivity|]. cbn [filter map]. destruct (Bool.eqb _ _); cbn [map]; now rewrite IH. }
    rewrite EF, HI. destruct ks as [|a [|c [|? ?]]]; try discriminate L2.
    assert (A := I2 a (or_introl eq_refl)). assert (C := I2 c (or_intror (or_introl eq_refl))). inversion N2 as [|? ? N3 _]; subst.
    cbn [In] in A, C. destruct A as [<-|[<-|[<-|[<-|[]]]]]; destruct C as [<-|[<-|[<-|[<-|[]]]]]; try (exfalso; apply N3; now left); destruct b; reflexivity. }
  assert (ER : length (rights (placed (titems t) sd)) = 2).
  { rewrite placed_rights by (exact H2 || apply sd_of_sides). rewrite map_length. rewrite <- (HL true). f_equal. apply filter_ext. intros it. unfold sd, sd_of. now destruct (existsb _ _). }
  assert (EL : length (lefts (placed (titems t) sd)) = 2).
  { rewrite placed_lefts by (exact H2 || apply sd_of_sides). rewrite map_length. rewrite <- (HL false). f_equal. apply filter_ext. intros it. unfold sd, sd_of. now destruct (existsb _ _). }
  destruct (reactions_complete (species_of t) (tflags t) (reactions_of t) sd f HF (told_distinct t HD) (reactions_of_ok t HF HD)) as (r & Ir & Eh & _).
  - apply sd_of_sides.
  - exact If.
  - unfold sd, sd_of. destruct (existsb _ _) eqn:E; [|reflexivity]. apply existsb_exists in E. destruct E as (k & Ik & Ek). apply Nat.eqb_eq in Ek. exfalso. apply NF. now rewrite Ek.
  - assert (W := HL true). destruct (filter _ (titems t)) as [|g l] eqn:Eg; [discriminate W|]. exists g.
    assert (Ig : In g (g :: l)) by now left. rewrite <- Eg in Ig. apply filter_In in Ig. destruct Ig as (Ig & Bg). split; [exact Ig|].
    unfold sd, sd_of. apply Bool.eqb_prop in Bg. now rewrite Bg.
  - exact Ha.
  - fold (titems t). intros (x & Ex & _). rewrite Ex in EL. discriminate EL.
  - fold (titems t). intros (x & Ex & _). rewrite Ex in ER. discriminate ER.
  - exists r. auto.
Qed.

(* the charge-conjugate interaction *)
Definition conjugate (t : tmpl) : tmpl := mkTmpl (tparts t) (map negb (fst (tflags t)), map negb (snd (tflags t))).
Lemma titems_conjugate t : titems (conjugate t) = map (fun it => mkItem (iside it) (ispecie it) (negb (anti it)) (index it) (crossed it)) (titems t).
Proof.
  assert (G : forall sd ps s fs, items_from sd s ps (map negb fs) = map (fun it => mkItem (iside it) (ispecie it) (negb (anti it)) (index it) (crossed it)) (items_from sd s ps fs)).
  { intros sd ps. induction ps as [|p ps IH]; intros s fs; [reflexivity|]. destruct fs as [|f fs]; [reflexivity|]. cbn [map items_from iside ispecie anti index crossed]. now rewrite IH. }
  unfold titems, base_items, species_of, conjugate. cbn [tparts tflags fst snd]. rewrite map_app, !G. reflexivity.
Qed.
Lemma conjugate_fit t : flags_fit t -> flags_fit (conjugate t).
Proof. unfold flags_fit, flags_ok, conjugate, species_of. cbn [tflags tparts fst snd]. rewrite !map_length. auto. Qed.
