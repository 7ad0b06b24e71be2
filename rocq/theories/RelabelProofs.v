(* The reactions of an interaction depend on the identities of the species only
   through their equality and on the masses only through the kinematic test. *)
From Coq Require Import Permutation.
From Verif Require Import Base CrossModel CrossProofs.

Definition relabel (f : specie -> specie) (it : item) : item := mkItem (iside it) (f (ispecie it)) (anti it) (index it) (crossed it).
(* f changes identities and masses only *)
Definition keeps_kind (f : specie -> specie) : Prop := forall s, sname (f s) = sname s /\ majorana (f s) = majorana s.
Definition keeps_identity (f : specie -> specie) (l : list specie) : Prop :=
  forall s s', In s l -> In s' l -> (sid (f s) =? sid (f s')) = (sid s =? sid s').
Definition keeps_kinematics (f : specie -> specie) (l : list specie) : Prop :=
  forall lhs rhs, Permutation (map ispecie (lhs ++ rhs)) l -> impossible (map (relabel f) lhs) (map (relabel f) rhs) = impossible lhs rhs.
Definition drawn (l : list specie) (r : list item) : Prop := forall it, In it r -> In (ispecie it) l.

Lemma selects_map {A B} (g : A -> B) l : selects (map g l) = map (fun '(x, r) => (g x, map g r)) (selects l).
Proof.
  induction l as [|x l IH]; cbn [selects map]; [reflexivity|]. f_equal. rewrite IH, !map_map. apply map_ext. now intros [y r].
Qed.
Lemma perms_n_map {A B} (g : A -> B) n : forall l, perms_n n (map g l) = map (map g) (perms_n n l).
Proof.
  induction n as [|n IH]; intros l; cbn [perms_n]; [reflexivity|]. rewrite selects_map, flat_map_concat_map, map_map, flat_map_concat_map, concat_map, map_map.
  f_equal. apply map_ext. intros [x r]. rewrite IH, !map_map. reflexivity.
Qed.
Lemma arrange_from_map f i perm : keeps_kind f -> forall j, arrange_from i j (map (relabel f) perm) = map (relabel f) (arrange_from i j perm).
Proof.
  intros HK. induction perm as [|it t IH]; intros j; cbn [arrange_from map]; [reflexivity|]. rewrite IH. f_equal.
  unfold cross_at, cross_particle. cbn [relabel iside ispecie]. destruct (HK (ispecie it)) as [_ ->].
  destruct ((0 <? iside it)%Z && (j <=? i) || (iside it <? 0)%Z && (i <? j))%bool; reflexivity.
Qed.
Lemma filter_map_comm {A B} (g : A -> B) p q l : (forall x, p (g x) = q x) -> filter p (map g l) = map g (filter q l).
Proof. intros H. induction l as [|x l IH]; cbn [map filter]; [reflexivity|]. rewrite H, IH. now destruct (q x). Qed.

Definition faithful (f : specie -> specie) (l : list specie) : Prop := keeps_kind f /\ keeps_identity f l /\ keeps_kinematics f l.

Lemma item_ltb_relabel f l x y : faithful f l -> In (ispecie x) l -> In (ispecie y) l -> item_ltb (relabel f x) (relabel f y) = item_ltb x y.
Proof. intros (HK & HI & _) Hx Hy. unfold item_ltb. cbn [relabel iside ispecie anti index crossed]. rewrite HI by assumption. now rewrite !(proj1 (HK _)). Qed.
Lemma item_eqb_relabel f l x y : faithful f l -> In (ispecie x) l -> In (ispecie y) l -> item_eqb (relabel f x) (relabel f y) = item_eqb x y.
Proof. intros (HK & HI & _) Hx Hy. unfold item_eqb. cbn [relabel iside ispecie anti index crossed]. now rewrite HI by assumption. Qed.
Lemma insert_relabel f l x r : faithful f l -> drawn l (x :: r) -> insert_asc (relabel f x) (map (relabel f) r) = map (relabel f) (insert_asc x r).
Proof.
  intros HF. induction r as [|y r IH]; intros HD; cbn [insert_asc map]; [reflexivity|].
  rewrite (item_ltb_relabel f l) by (try assumption; apply HD; cbn; tauto). destruct (item_ltb y x); cbn [map]; [|reflexivity]. rewrite IH; [reflexivity|].
  intros it [<-|Hi]; apply HD; cbn; tauto.
Qed.
Lemma sorted_drawn l r : drawn l r -> drawn l (sorted r).
Proof. intros HD it Hi. apply HD. now apply (Permutation_in _ (sorted_perm r)). Qed.
Lemma sorted_relabel f l r : faithful f l -> drawn l r -> sorted (map (relabel f) r) = map (relabel f) (sorted r).
Proof.
  intros HF. induction r as [|x r IH]; intros HD; [reflexivity|]. unfold sorted in *. cbn [fold_right map]. rewrite IH by (intros it Hi; apply HD; now right).
  apply (insert_relabel f l); [assumption|]. intros it [<-|Hi]; [apply HD; now left|]. apply HD. right. now apply (Permutation_in _ (sorted_perm r)).
Qed.
Lemma key_relabel f l r r' : faithful f l -> drawn l r -> drawn l r' -> key_eqb (map (relabel f) r) (map (relabel f) r') = key_eqb r r'.
Proof.
  intros HF. revert r'. induction r as [|x r IH]; intros [|y r'] Hr Hr'; cbn [key_eqb map]; try reflexivity.
  rewrite (item_eqb_relabel f l x y HF (Hr x (or_introl eq_refl)) (Hr' y (or_introl eq_refl))). rewrite IH; [reflexivity| |]; intros it Hi; [apply Hr|apply Hr']; now right.
Qed.
Lemma remember_relabel f l rs r : faithful f l -> (forall q, In q rs -> drawn l q) -> drawn l r ->
  remember (map (map (relabel f)) rs) (map (relabel f) r) = map (map (relabel f)) (remember rs r).
Proof.
  intros HF Hrs Hr. unfold remember.
  assert (E : existsb (key_eqb (map (relabel f) r)) (map (map (relabel f)) rs) = existsb (key_eqb r) rs).
  { induction rs as [|q rs IH]; cbn [existsb map]; [reflexivity|]. rewrite (key_relabel f l), IH; auto.
    - intros q' Hq. apply Hrs. now right.
    - apply Hrs. now left. }
  rewrite E. destruct (existsb (key_eqb r) rs); [reflexivity|]. now rewrite map_app.
Qed.
Lemma remember_drawn l rs r : (forall q, In q rs -> drawn l q) -> drawn l r -> forall q, In q (remember rs r) -> drawn l q.
Proof. intros Hrs Hr q. unfold remember. destruct (existsb _ _); [auto|]. intros Hq. apply in_app_or in Hq. destruct Hq as [Hq|[<-|[]]]; auto. Qed.
Lemma to_side_relabel f sd it : keeps_kind f -> to_side sd (relabel f it) = relabel f (to_side sd it).
Proof. intros HK. unfold to_side, cross_particle. cbn [relabel iside ispecie]. destruct (HK (ispecie it)) as [_ ->]. now destruct (iside it =? sd)%Z. Qed.
Lemma drawn_to_side l sd r : drawn l r -> drawn l (map (to_side sd) r).
Proof. intros HD it Hi. apply in_map_iff in Hi. destruct Hi as (x & <- & Hx). rewrite to_side_specie. now apply HD. Qed.
Lemma map_to_side f sd r : keeps_kind f -> map (to_side sd) (map (relabel f) r) = map (relabel f) (map (to_side sd) r).
Proof. intros HK. rewrite !map_map. apply map_ext. intros. now apply to_side_relabel. Qed.
Lemma outcome_relabel f l h L Rr : faithful f l -> Permutation (map ispecie (h :: L ++ Rr)) l ->
  outcome (relabel f h) (map (relabel f) L) (map (relabel f) Rr) = option_map (map (relabel f)) (outcome h L Rr) /\ (forall r, outcome h L Rr = Some r -> drawn l r).
Proof.
  intros HF HP. pose proof HF as (HK & HI & HM).
  assert (HD : drawn l (h :: L ++ Rr)) by (intros it Hi; apply (Permutation_in _ HP), in_map, Hi).
  assert (HL : drawn l (map (to_side (-1)) L)) by (apply drawn_to_side; intros it Hi; apply HD; right; apply in_or_app; auto).
  assert (HR : drawn l (map (to_side 1) Rr)) by (apply drawn_to_side; intros it Hi; apply HD; right; apply in_or_app; auto).
  assert (HH : In (ispecie (to_side (-1) h)) l) by (rewrite to_side_specie; apply HD; now left).
  unfold outcome. rewrite to_side_relabel, !map_to_side, !(sorted_relabel f l) by assumption.
  set (lhs := to_side (-1) h :: sorted (map (to_side (-1)) L)). set (rhs := sorted (map (to_side 1) Rr)).
  change (relabel f (to_side (-1) h) :: map (relabel f) (sorted (map (to_side (-1)) L))) with (map (relabel f) lhs).
  rewrite HM.
  - cbn [relabel anti]. split.
    + destruct (anti (to_side (-1) h)); [reflexivity|]. destruct (impossible lhs rhs); [reflexivity|]. cbn [option_map]. now rewrite map_app.
    + intros r. destruct (anti (to_side (-1) h)); [discriminate|]. destruct (impossible lhs rhs); [discriminate|]. intros E. injection E as <-.
      intros it [<-|Hi]; [exact HH|]. apply in_app_or in Hi. destruct Hi as [Hi|Hi]; [apply (sorted_drawn l _ HL it Hi)|apply (sorted_drawn l _ HR it Hi)].
  - etransitivity; [|exact HP]. unfold lhs, rhs. cbn [app map]. rewrite to_side_specie. apply perm_skip. rewrite !map_app. apply Permutation_app.
    + etransitivity; [apply Permutation_map, sorted_perm|]. rewrite map_map. erewrite map_ext; [reflexivity|]. intros. apply to_side_specie.
    + etransitivity; [apply Permutation_map, sorted_perm|]. rewrite map_map. erewrite map_ext; [reflexivity|]. intros. apply to_side_specie.
Qed.
Lemma candidate_relabel f l perm i : faithful f l -> two_sided perm -> Permutation (map ispecie perm) l -> i < length perm - 1 ->
  candidate (map (relabel f) perm) i = rmap (option_map (map (relabel f))) (candidate perm i) /\ (forall r, candidate perm i = Ok (Some r) -> drawn l r).
Proof.
  intros HF HT HP Hi. destruct (candidate_split perm i Hi) as (h & L & Rr & -> & <- & _).
  assert (HT' : two_sided (relabel f h :: map (relabel f) L ++ map (relabel f) Rr)).
  { intros it Hi'. rewrite <- map_app in Hi'. change (In it (map (relabel f) (h :: L ++ Rr))) in Hi'. apply in_map_iff in Hi'. destruct Hi' as (x & <- & Hx). exact (HT x Hx). }
  pose proof (candidate_spec _ _ _ HT') as C. rewrite map_length in C. cbn [map]. rewrite map_app, C, (candidate_spec _ _ _ HT).
  destruct (outcome_relabel f l h L Rr HF HP) as (E & HD). split; [cbn [rmap]; now rewrite E|]. intros r Hr. injection Hr as Hr. now apply HD.
Qed.

Lemma rfold_relabel {S S' O O'} (F : S -> S') (G : O -> O') (I : S -> Prop) step step' ops : 
  (forall s o, In o ops -> I s -> step' (F s) (G o) = rmap F (step s o) /\ (forall s', step s o = Ok s' -> I s')) ->
  forall s, I s -> rfold step' (F s) (map G ops) = rmap F (rfold step s ops) /\ (forall s', rfold step s ops = Ok s' -> I s').
Proof.
  induction ops as [|o ops IH]; intros H s Hs; cbn [rfold map].
  - split; [reflexivity|]. intros s' E. injection E as <-. exact Hs.
  - destruct (H s o (or_introl eq_refl) Hs) as (E & HI). rewrite E. destruct (step s o) as [s1|e]; cbn [rmap]; [|split; [reflexivity|discriminate]].
    apply IH; [intros; apply H; auto; now right|]. now apply HI.
Qed.
Lemma items_from_relabel f sd : forall ps fs n, items_from sd n (map f ps) fs = map (relabel f) (items_from sd n ps fs).
Proof. induction ps as [|p ps IH]; intros [|b fs] n; cbn [items_from map]; try reflexivity. now rewrite IH. Qed.
Lemma base_relabel f ps fs : base_items (map f (fst ps), map f (snd ps)) fs = map (relabel f) (base_items ps fs).
Proof. unfold base_items. cbn [fst snd]. now rewrite !items_from_relabel, map_length, map_app. Qed.
Lemma base_species ps fs : flags_ok ps fs -> map ispecie (base_items ps fs) = fst ps ++ snd ps.
Proof.
  intros (H1 & H2). unfold base_items. rewrite map_app.
  assert (A : forall sd (l : list specie) (b : list bool) n, length l = length b -> map ispecie (items_from sd n l b) = l).
  { intros sd l. induction l as [|x l IH]; intros [|b bs] n H; cbn in *; try discriminate; [reflexivity|]. f_equal. apply IH. lia. }
  now rewrite !A.
Qed.
Theorem reactions_relabel f ps fs : flags_ok ps fs -> faithful f (fst ps ++ snd ps) ->
  reactions_map (map f (fst ps), map f (snd ps)) fs = rmap (map (map (relabel f))) (reactions_map ps fs).
Proof.
  intros HO HF. unfold reactions_map. cbn [fst snd]. rewrite !map_length, base_relabel. unfold permutations. rewrite map_length, perms_n_map.
  set (n := length (fst ps) + length (snd ps)). set (l := fst ps ++ snd ps) in *.
  set (I := fun rs : list (list item) => forall q, In q rs -> drawn l q).
  refine (proj1 (rfold_relabel (map (map (relabel f))) (map (relabel f)) I _ _ _ _ [] _)); [|intros q []].
  intros rs perm Hp HI. change (perms_n (length (base_items ps fs)) (base_items ps fs)) with (permutations (base_items ps fs)) in Hp. apply permutations_spec in Hp.
  assert (HT : two_sided perm) by (intros it Hi; apply (base_two_sided ps fs); now apply (Permutation_in _ (Permutation_sym Hp))).
  assert (HP : Permutation (map ispecie perm) l) by (unfold l; rewrite <- (base_species ps fs HO); symmetry; now apply Permutation_map).
  assert (HN : length perm = n) by (rewrite <- (Permutation_length Hp); now apply base_length).
  pose proof (rfold_relabel (map (map (relabel f))) (fun i : nat => i) I
    (fun reactions i => let* c := candidate perm i in Ok (match c with None => reactions | Some r => remember reactions r end))
    (fun reactions i => let* c := candidate (map (relabel f) perm) i in Ok (match c with None => reactions | Some r => remember reactions r end))
    (seq 0 (n - 1))) as RF. rewrite map_id in RF. apply RF; [|exact HI]. clear RF.
  intros rs' i Hi HI'. apply in_seq in Hi. destruct (candidate_relabel f l perm i HF HT HP ltac:(lia)) as (E & HD). rewrite E.
  destruct (candidate perm i) as [[r|]|e]; cbn [rmap rbind option_map].
  - rewrite (remember_relabel f l) by (auto; now apply HD). split; [reflexivity|]. intros s' Hs. injection Hs as <-. exact (remember_drawn l rs' r HI' (HD r eq_refl)).
  - split; [reflexivity|]. intros s' Hs. injection Hs as <-. exact HI'.
  - split; [reflexivity|]. discriminate.
Qed.
