(* The amplitude of a merged collision integral, from the list of the reactions
   it stands for. *)
From Coq Require Import Reals Lra Permutation.
From Verif Require Import Base CrossModel CrossProofs CrossProofs2 CrossProofs3 CrossProofs4 LibModel LibProofs.
Open Scope R_scope.
Local Notation length := List.length.

(* what of a reaction its amplitude depends on: where the particles of the
   interaction went, and whether they were crossed *)
Definition shape_of (r : list item) : list (nat * bool) := map (fun it => (index it, crossed it)) r.
Fixpoint place (k j : nat) (s : list (nat * bool)) (found : option (nat * bool)) : option (nat * bool) :=
  match s with [] => found | (i, c) :: t => place k (S j) t (if (i =? k)%nat then Some (j, c) else found) end.
Definition shape_momentum (s : list (nat * bool)) (p : nat -> vec4) (k : nat) : vec4 :=
  match place k 0 s None with Some (j, true) => neg (p j) | Some (j, false) => p j | None => p O end.
Definition shape_mass (s : list (nat * bool)) (m : nat -> R) (k : nat) : R := match place k 0 s None with Some (j, _) => m j | None => 0 end.
Definition shape_amplitude (s : list (nat * bool)) (Ms : list mel) (p : nat -> vec4) (m : nat -> R) : R :=
  (-1) ^ length (filter snd s) * total Ms (shape_momentum s p) (shape_mass s m).
Definition shapes_amplitude (ss : list (list (nat * bool))) (Ms : list mel) (p : nat -> vec4) (m : nat -> R) : R :=
  fold_right Rplus 0 (map (fun s => shape_amplitude s Ms p m) ss).

Lemma place_pos k : forall r j pre found, (forall f, found = Some f -> match nth_error (pre ++ r) (fst f) with Some it => crossed it = snd f | None => False end) -> length pre = j ->
  match place k j (shape_of r) found with
  | Some (i, c) => pos_of k j r (option_map fst found) = Some i /\ is_crossed (pre ++ r) i = c
  | None => pos_of k j r (option_map fst found) = None
  end.
Proof.
  induction r as [|it t IH]; intros j pre found HF HJ; cbn [shape_of map place pos_of].
  - destruct found as [[i c]|]; cbn [option_map fst]; [|reflexivity]. split; [reflexivity|]. specialize (HF (i, c) eq_refl). cbn [fst snd] in HF. unfold is_crossed. now destruct (nth_error _ _).
  - assert (EA : pre ++ it :: t = (pre ++ [it]) ++ t) by now rewrite <- app_assoc.
    fold (shape_of t). rewrite EA in *. specialize (IH (S j) (pre ++ [it]) (if (index it =? k)%nat then Some (j, crossed it) else found)).
    replace (option_map fst (if (index it =? k)%nat then Some (j, crossed it) else found)) with (if (index it =? k)%nat then Some j else option_map fst found) in IH by (now destruct (index it =? k)%nat).
    apply IH.
    + intros f Ef. destruct (index it =? k)%nat; [|now apply HF]. injection Ef as <-. cbn [fst snd]. rewrite <- app_assoc, nth_error_app2 by lia. subst j. now rewrite Nat.sub_diag.
    + rewrite app_length. cbn. lia.
Qed.
Lemma crossed_shape r Ms p m : crossed_amplitude r Ms p m = shape_amplitude (shape_of r) Ms p m.
Proof.
  unfold crossed_amplitude, shape_amplitude, crossings. f_equal.
  - f_equal. unfold shape_of. induction r as [|it t IH]; [reflexivity|]. cbn [filter map snd]. destruct (crossed it); cbn [length]; now rewrite IH.
  - unfold total. f_equal. apply map_ext. intros M.
    assert (HP : forall k, base_momentum r p k = shape_momentum (shape_of r) p k /\ base_mass r m k = shape_mass (shape_of r) m k).
    { intros k. unfold base_momentum, shape_momentum, base_mass, shape_mass. pose proof (place_pos k r 0 [] None ltac:(discriminate) eq_refl) as H. cbn [option_map] in H.
      destruct (place k 0 (shape_of r) None) as [(i, c)|]; [|now rewrite H]. destruct H as (-> & HC). cbn [app] in HC. rewrite HC. now destruct c. }
    destruct M as [[|a [|b [|c [|d [|e t]]]]] K1 K2 K|K]; cbn [Msq]; try reflexivity.
    destruct (HP a) as (-> & ->), (HP b) as (-> & ->), (HP c) as (-> & _), (HP d) as (-> & _). reflexivity.
Qed.

(* places of the species and the reactions merged *)
Definition group (t : tmpl) (r : list item) : list specie * list Z * list (list (nat * bool)) :=
  (map ispecie r, map iside r, map shape_of (filter (fun r' => same_integral (of_reaction r') (of_reaction r)) (reactions_of t))).
Definition group_of (o : integral) : list specie * list Z := (map ispecie (ireaction o), map iside (ireaction o)).
Lemma integrals_amplitude t Ms : flags_fit t -> told_apart (parts t) -> length (parts t) = 4%nat -> Forall proper Ms ->
  exists out, cross_generating (species_of t) (tflags t) Ms = Ok out /\
  ForallOrdPairs (fun i j => ~ similar i j) out /\
  (forall o, In o out -> exists r, In r (reactions_of t) /\ header o = header (of_reaction r)) /\
  (forall r, In r (reactions_of t) -> exists o, In o out /\ similar (of_reaction r) o /\ map ispecie r = map ispecie (ireaction o)) /\
  (forall o, In o out -> exists ss, In (group_of o, ss) (map (group t) (reactions_of t)) /\ particle o = hd (particle o) (map ispecie (ireaction o)) /\
     forall p m, total (CrossModel.Ms o) p m = shapes_amplitude ss Ms p m).
Proof.
  intros HF HT H4 HM. pose proof (reactions_of_ok t HF HT) as ER.
  destruct (cross_generating_spec (species_of t) (tflags t) Ms HF (told_distinct t HT)) as (rs & out & Er & Eo & HO & Hh & Hr & HS); auto.
  { unfold species_of, parts in *. cbn [fst snd]. rewrite !map_length, <- app_length. exact H4. }
  rewrite ER in Er. injection Er as <-. exists out. split; [exact Eo|]. split; [exact HO|]. split; [exact Hh|]. split.
  - exact Hr.
  - intros o Ho. destruct (Hh o Ho) as (r & Hi & Eh). eexists. split; [|split].
    + apply in_map_iff. exists r. split; [|exact Hi]. unfold group, group_of. injection Eh as _ ->. reflexivity.
    + unfold header in Eh. injection Eh as Ep Ei. rewrite Ei, Ep. destruct r; reflexivity.
    + intros p m. rewrite (HS o Ho). unfold shapes_amplitude. rewrite map_map.
      rewrite (filter_ext (fun r' => same_integral (of_reaction r') o) (fun r' => same_integral (of_reaction r') (of_reaction r)) (fun r' => same_header _ _ _ Eh)).
      f_equal. apply map_ext. intros r'. apply crossed_shape.
Qed.
