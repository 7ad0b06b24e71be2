(* Collision integrals under a change of the identity and the mass of a species. *)
From Coq Require Import Reals Lra Permutation ZArith.
From Verif Require Import Base CrossModel CrossProofs CrossProofs2 CrossProofs3 CrossProofs4 ParamsModel LibModel LibProofs MatrixModel Lib2Proofs RelabelProofs LedgerProofs LedgerProps ShapeProofs TermProofs WeakTableProofs ReciprocityProofs.
Open Scope nat_scope.
Local Notation length := List.length.

Definition keeps_species (f : specie -> specie) (l : list specie) : Prop := forall s s', In s l -> In s' l -> specie_eqb (f s) (f s') = specie_eqb s s'.

Lemma species_on_relabel f sd r : species_on sd (map (relabel f) r) = map (fun it => sid (f (ispecie it))) (filter (fun it => (iside it =? sd)%Z) r).
Proof. unfold species_on. rewrite (filter_map_comm (relabel f) _ (fun it => (iside it =? sd)%Z)) by reflexivity. rewrite map_map. reflexivity. Qed.
Lemma count_relabel f l s r : keeps_identity f l -> In s l -> drawn l r ->
  count_occ Nat.eq_dec (map (fun it => sid (f (ispecie it))) r) (sid (f s)) = count_occ Nat.eq_dec (map (fun it => sid (ispecie it)) r) (sid s).
Proof.
  intros HI Hs. induction r as [|it r IH]; intros HD; [reflexivity|]. cbn [map count_occ]. rewrite IH by (intros x Hx; apply HD; now right).
  pose proof (HI (ispecie it) s (HD it (or_introl eq_refl)) Hs) as E.
  destruct (Nat.eq_dec (sid (f (ispecie it))) (sid (f s))) as [A|A], (Nat.eq_dec (sid (ispecie it)) (sid s)) as [B|B]; try reflexivity.
  - apply Nat.eqb_eq in A. rewrite E in A. now apply Nat.eqb_eq in A.
  - apply Nat.eqb_eq in B. rewrite <- E in B. now apply Nat.eqb_eq in B.
Qed.
Lemma counter_relabel f l a b : keeps_identity f l -> drawn l a -> drawn l b ->
  counter_eqb (map (fun it => sid (f (ispecie it))) a) (map (fun it => sid (f (ispecie it))) b) = counter_eqb (map (fun it => sid (ispecie it)) a) (map (fun it => sid (ispecie it)) b).
Proof.
  intros HI HA HB. unfold counter_eqb. rewrite <- !map_app.
  assert (HAB : drawn l (a ++ b)) by (intros x Hx; apply in_app_or in Hx; destruct Hx; auto). revert HAB. generalize (a ++ b) as c. induction c as [|it c IH]; intros HC; [reflexivity|]. cbn [map forallb].
  rewrite IH by (intros x Hx; apply HC; now right). rewrite !(count_relabel f l) by (auto; apply HC; now left). reflexivity.
Qed.
Lemma drawn_filter l p r : drawn l r -> drawn l (filter p r).
Proof. intros H it Hi. apply filter_In in Hi. now apply H. Qed.
Lemma same_integral_relabel f l r r' : keeps_identity f l -> drawn l r -> drawn l r' -> r <> [] -> r' <> [] ->
  same_integral (of_reaction (map (relabel f) r)) (of_reaction (map (relabel f) r')) = same_integral (of_reaction r) (of_reaction r').
Proof.
  intros HI HD HD' N N'. unfold same_integral, of_reaction. cbn [particle ireaction]. rewrite !species_on_relabel, !(counter_relabel f l) by auto using drawn_filter. f_equal.
  destruct r as [|h r]; [easy|]. destruct r' as [|h' r']; [easy|]. cbn [map relabel ispecie]. apply HI; [apply HD|apply HD']; now left.
Qed.
Lemma filter_map_in {A B} (g : A -> B) p q l : (forall x, In x l -> p (g x) = q x) -> filter p (map g l) = map g (filter q l).
Proof. induction l as [|x l IH]; intros H; [reflexivity|]. cbn [map filter]. rewrite (H x (or_introl eq_refl)), IH by (intros; apply H; now right). now destruct (q x). Qed.
Lemma group_relabel f l t t' r : reactions_of t' = map (map (relabel f)) (reactions_of t) -> keeps_identity f l -> (forall r, In r (reactions_of t) -> drawn l r /\ r <> []) -> In r (reactions_of t) ->
  group t' (map (relabel f) r) = (map f (fst (fst (group t r))), snd (fst (group t r)), snd (group t r)).
Proof.
  intros ER HI HD Hr. unfold group. cbn [fst snd]. rewrite !map_map, ER. f_equal. destruct (HD r Hr) as (D & N).
  rewrite (filter_map_in _ _ (fun r' => same_integral (of_reaction r') (of_reaction r))).
  - rewrite map_map. apply map_ext. intros x. unfold shape_of. now rewrite map_map.
  - intros x Hx. destruct (HD x Hx) as (Dx & Nx). now apply (same_integral_relabel f l).
Qed.
Lemma gspecie_relabel f g j : gspecie (map f (fst (fst g)), snd (fst g), snd g) j = option_map f (gspecie g j).
Proof. unfold gspecie. cbn [fst]. apply nth_error_map. Qed.
Lemma opt_same_relabel f l a b : keeps_species f l -> (forall x, a = Some x -> In x l) -> (forall x, b = Some x -> In x l) -> opt_same (option_map f a) (option_map f b) = opt_same a b.
Proof. intros HK HA HB. destruct a as [x|], b as [y|]; cbn; try reflexivity. apply HK; auto. Qed.
Lemma gspecie_in (g : grp) l j x : incl (fst (fst g)) l -> gspecie g j = Some x -> In x l.
Proof. intros H E. apply H. unfold gspecie in E. now apply nth_error_In in E. Qed.
Lemma gterms_relabel f l fs g : keeps_species f l -> incl (fst (fst g)) l -> gterms fs (map f (fst (fst g)), snd (fst g), snd g) = gterms fs g.
Proof.
  intros HK HL. unfold gterms. cbn [snd]. f_equal. unfold gexchanges. apply filter_ext. intros q. f_equal. induction four as [|j js IH]; [reflexivity|]. cbn [forallb]. rewrite IH. rewrite !gspecie_relabel.
  rewrite (opt_same_relabel f l) by (auto; intros x Hx; now apply (gspecie_in g l) in Hx). reflexivity.
Qed.
Lemma good_relabel f fs (g : grp) : good fs (map f (fst (fst g)), snd (fst g), snd g) = good fs g.
Proof. reflexivity. Qed.
(* the particle at place k of one group is the first of the other *)
Definition facing (g : grp) (k : nat) (q : list nat) (g' : grp) : bool :=
  ((moved q 0 =? k)%nat && forallb (fun j => opt_same (gspecie g' j) (gspecie g (moved q j)) && (gside g' j =? - gside g k * gside g (moved q j))%Z) four)%bool.
Lemma facing_relabel f l g k q g' : keeps_species f l -> incl (fst (fst g)) l -> incl (fst (fst g')) l ->
  facing (map f (fst (fst g)), snd (fst g), snd g) k q (map f (fst (fst g')), snd (fst g'), snd g') = facing g k q g'.
Proof.
  intros HK H H'. unfold facing. f_equal. induction four as [|j js IH]; [reflexivity|]. cbn [forallb]. rewrite IH, !gspecie_relabel.
  rewrite (opt_same_relabel f l) by eauto using gspecie_in. reflexivity.
Qed.

(* terms without masses *)
Definition light (l : list term) : bool := forallb (fun t => negb (massive t)) l.
Lemma eval_light K1 K2 p m m' l : light l = true -> eval K1 K2 p m l = eval K1 K2 p m' l.
Proof.
  unfold light, eval. intros H. f_equal. apply map_ext_in. intros t Ht. rewrite forallb_forall in H. specialize (H t Ht). unfold eval1. destruct (massive t); [discriminate|reflexivity].
Qed.
