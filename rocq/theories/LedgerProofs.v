(* Number of particles an integral adds or removes; heavy parents. *)
From Coq Require Import Reals Lra Permutation.
From Verif Require Import Base FunctionalModel Integrate3Model CrossModel CrossProofs LibModel LibProofs Lib2Proofs KinemModel RelabelProofs.
Open Scope nat_scope.
Local Notation length := List.length.

(* the participants as the collision integrals read them *)
Definition sees (ks : specie -> kspecie) (ls : list lib) : Prop := forall p, In p ls ->
  let k := ks (sp p) in kid k = sid (sp p) /\ kname k = lname p /\ kmaj k = majorana (sp p) /\ kQ k = Some (IZR (Q3 p) / 3)%R /\ (0 < kdof k)%R.
Definition kitems (ks : specie -> kspecie) (r : list item) : list kitem := map (fun it => mkKI (iside it) (ks (ispecie it))) r.
(* one event of the integral changes the number of its particle by dof times the
   factors of integrate() (four_particle/__init__.py:153-158,
   three_particle/__init__.py:99-104) *)
Definition number_weight (ks : specie -> kspecie) (r : list item) : result R :=
  match r with
  | [] => Raise IndexError
  | h :: _ =>
      let k := ks (ispecie h) in
      let* m := (if length r =? 4 then multiplier_4p (kitems ks r) else multiplier_3p (kitems ks r)) in
      Ok (kdof k * modifiers (kmaj k) (kdof k) m 1 true 1)%R
  end.
Fixpoint rsum (l : list (result R)) : result R :=
  match l with [] => Ok 0%R | m :: t => let* x := m in let* y := rsum t in Ok (x + y)%R end.

(* the same weight, computed *)
Definition name_in (n : string) (l : list string) : bool := existsb (String.eqb n) l.
Definition charged_names (ls : list lib) : list string := map lname (filter (fun p => negb (Q3 p =? 0)%Z) ls).
Definition wcount (sd : Z) (id : nat) (r : list item) : nat := length (filter (fun it => (iside it =? sd)%Z && (sid (ispecie it) =? id)) r).
Definition wcreation (r : list item) : bool := existsb (Z.eqb (fold_right Z.add 0%Z (map iside r))) [-1; -2]%Z.
Definition wapplies (charged : list string) (r : list item) (h parent : item) : bool :=
  existsb (fun it => String.eqb sterile (sname (ispecie it))) r ||
  (wcreation r && (if majorana (ispecie parent) then negb (name_in (sname (ispecie h)) charged) else true)).
Definition wmult (charged : list string) (r : list item) : nat :=
  match r with
  | [h; _; p] => if wapplies charged r h p then if (wcount (-1) (sid (ispecie h)) r =? 2) && (wcount 1 (sid (ispecie h)) r =? 0) then 2 else 1 else 1
  | [h; _; _; p] =>
      let l := wcount (-1) (sid (ispecie h)) r in let q := wcount 1 (sid (ispecie h)) r in
      if wapplies charged r h p then if (l =? 2) && ((q =? 0) || (q =? 1)) then 2 else if (l =? 3) && (q =? 0) then 3 else 1 else 1
  | _ => 1
  end.
Definition weight (charged : list string) (r : list item) : nat :=
  match r with h :: _ => (if majorana (ispecie h) then 1 else 2) * wmult charged r | [] => 0 end.

Definition names_tell (ls : list lib) : bool :=
  forallb (fun p => forallb (fun q => negb (String.eqb (lname p) (lname q)) || Bool.eqb (Q3 p =? 0)%Z (Q3 q =? 0)%Z) ls) ls.
Definition from_libs (ls : list lib) (r : list item) : Prop := forall it, In it r -> exists p, In p ls /\ ispecie it = sp p.

Lemma charged_iff ls p : names_tell ls = true -> In p ls -> name_in (lname p) (charged_names ls) = negb (Q3 p =? 0)%Z.
Proof.
  intros HN Hp. unfold name_in, charged_names. apply eq_true_iff_eq. rewrite existsb_exists. split.
  - intros (n & Hn & E). apply String.eqb_eq in E. subst n. apply in_map_iff in Hn. destruct Hn as (q & E & Hq). apply filter_In in Hq. destruct Hq as [Hq HQ].
    unfold names_tell in HN. rewrite forallb_forall in HN. specialize (HN q Hq). rewrite forallb_forall in HN. specialize (HN p Hp).
    rewrite E, String.eqb_refl in HN. cbn [negb orb] in HN. apply Bool.eqb_prop in HN. now rewrite <- HN.
  - intros HQ. exists (lname p). split; [|apply String.eqb_refl]. apply in_map, filter_In. auto.
Qed.
Lemma kitems_counts ks ls r : sees ks ls -> from_libs ls r -> forall sd id, count_side sd id (kitems ks r) = wcount sd id r.
Proof.
  intros HS HL sd id. unfold count_side, wcount, kitems. induction r as [|it r IH]; [reflexivity|]. cbn [map filter kside KinemModel.ks].
  destruct (HL it (or_introl eq_refl)) as (p & Hp & E). destruct (HS p Hp) as (K1 & _). rewrite E, K1.
  specialize (IH ltac:(intros x Hx; apply HL; now right)). destruct ((iside it =? sd)%Z && (sid (sp p) =? id)); cbn [List.length]; now rewrite IH.
Qed.
Lemma kitems_sterile ks ls r : sees ks ls -> from_libs ls r -> has_sterile (kitems ks r) = existsb (fun it => String.eqb sterile (sname (ispecie it))) r.
Proof.
  intros HS HL. unfold has_sterile, kitems. induction r as [|it r IH]; [reflexivity|]. cbn [map existsb KinemModel.ks].
  destruct (HL it (or_introl eq_refl)) as (p & Hp & E). destruct (HS p Hp) as (_ & K2 & _). rewrite E, K2. rewrite IH by (intros x Hx; apply HL; now right). reflexivity.
Qed.
Lemma kitems_creation ks r : creation (kitems ks r) = wcreation r.
Proof. unfold creation, wcreation, ksum, kitems. now rewrite map_map. Qed.
Lemma applies_ok ks ls r h p : sees ks ls -> names_tell ls = true -> from_libs ls r -> In h r -> In p r ->
  (if has_sterile (kitems ks r) then Ok true else if creation (kitems ks r) then neutral_or_dirac (ks (ispecie p)) (ks (ispecie h)) else Ok false) =
  Ok (wapplies (charged_names ls) r h p).
Proof.
  intros HS HN HL Hh Hp. rewrite (kitems_sterile ks ls), kitems_creation by assumption. unfold wapplies.
  destruct (existsb _ r); cbn [orb]; [reflexivity|]. destruct (wcreation r); cbn [andb]; [|reflexivity].
  destruct (HL h Hh) as (lh & Ih & Eh). destruct (HL p Hp) as (lp & Ip & Ep). rewrite Eh, Ep. unfold neutral_or_dirac.
  destruct (HS lp Ip) as (_ & _ & -> & _). destruct (majorana (sp lp)); [|reflexivity]. destruct (HS lh Ih) as (_ & _ & _ & -> & _).
  change (sname (sp lh)) with (lname lh). rewrite charged_iff by assumption. rewrite negb_involutive.
  destruct (Z.eqb_spec (Q3 lh) 0) as [->|NZ]; destruct (Req_EM_T _ 0) as [E|E]; try reflexivity.
  - exfalso. apply E. lra.
  - exfalso. assert (IZR (Q3 lh) = 0%R) by lra. apply NZ. now apply eq_IZR_R0.
Qed.
Lemma weight_ok ks ls r : sees ks ls -> names_tell ls = true -> from_libs ls r -> (length r = 3 \/ length r = 4) ->
  number_weight ks r = Ok (INR (weight (charged_names ls) r)).
Proof.
  intros HS HN HL HR.
  assert (HM : forall h (m : nat), In h r -> Ok (kdof (ks (ispecie h)) * modifiers (kmaj (ks (ispecie h))) (kdof (ks (ispecie h))) (INR m) 1 true 1)%R =
                                   Ok (INR ((if majorana (ispecie h) then 1 else 2) * m))).
  { intros h m Hh. destruct (HL h Hh) as (p & Ip & E). rewrite E. destruct (HS p Ip) as (_ & _ & KM & _ & KD). rewrite KM. f_equal. rewrite mult_INR. unfold modifiers.
    destruct (majorana (sp p)); cbn [INR]; field; lra. }
  destruct r as [|h [|b [|c [|d [|e r]]]]]; cbn [length] in HR; try lia.
  - unfold number_weight, weight. cbn [length Nat.eqb]. rewrite <- HM by (now left).
    unfold multiplier_3p, kitems. cbn [map]. cbv beta iota.
    pose proof (applies_ok ks ls [h; b; c] h c HS HN HL ltac:(now left) ltac:(cbn; tauto)) as HA. unfold kitems in HA. cbn [map] in HA. cbn [KinemModel.ks]. rewrite HA. cbn [rbind].
    change [mkKI (iside h) (ks (ispecie h)); mkKI (iside b) (ks (ispecie b)); mkKI (iside c) (ks (ispecie c))] with (kitems ks [h; b; c]).
    assert (HK : kid (ks (ispecie h)) = sid (ispecie h)) by (destruct (HL h (or_introl eq_refl)) as (p & Ip & E); rewrite E; now destruct (HS p Ip)).
    rewrite HK, !(kitems_counts ks ls) by assumption. unfold wmult.
    destruct (wapplies (charged_names ls) [h; b; c] h c); [|reflexivity]. destruct ((_ =? 2) && _)%bool; reflexivity.
  - unfold number_weight, weight. cbn [length Nat.eqb]. rewrite <- HM by (now left).
    unfold multiplier_4p, kitems. cbn [map]. cbv beta iota.
    pose proof (applies_ok ks ls [h; b; c; d] h d HS HN HL ltac:(now left) ltac:(cbn; tauto)) as HA. unfold kitems in HA. cbn [map] in HA. cbn [KinemModel.ks]. rewrite HA. cbn [rbind].
    change [mkKI (iside h) (ks (ispecie h)); mkKI (iside b) (ks (ispecie b)); mkKI (iside c) (ks (ispecie c)); mkKI (iside d) (ks (ispecie d))] with (kitems ks [h; b; c; d]).
    assert (HK : kid (ks (ispecie h)) = sid (ispecie h)) by (destruct (HL h (or_introl eq_refl)) as (p & Ip & E); rewrite E; now destruct (HS p Ip)).
    rewrite HK, !(kitems_counts ks ls) by assumption. unfold wmult.
    destruct (wapplies (charged_names ls) [h; b; c; d] h d); [|reflexivity].
    destruct ((_ =? 2) && ((_ =? 0) || (_ =? 1)))%bool; [reflexivity|]. destruct ((_ =? 3) && _)%bool; [replace (INR 3) with 3%R by (cbn; ring); reflexivity|reflexivity].
Qed.

Open Scope Z_scope.
(* a particle heavier than the others together *)
Definition masses (l : list specie) : Z := fold_right Z.add 0 (map smass l).
Definition heavy (n : specie) (os : list specie) : Prop := (forall o, In o os -> 0 <= smass o) /\ masses os < smass n.
Lemma masses_perm l l' : Permutation l l' -> masses l = masses l'.
Proof. intros H. unfold masses. induction H; cbn [map fold_right]; lia. Qed.
Lemma masses_in o os : (forall o, In o os -> 0 <= smass o) -> In o os -> smass o <= masses os.
Proof.
  unfold masses. induction os as [|x os IH]; intros H []; cbn [map fold_right].
  - subst x. assert (0 <= fold_right Z.add 0 (map smass os)). { clear IH. induction os as [|y os IH]; cbn; [lia|]. pose proof (H y ltac:(cbn; tauto)). specialize (IH ltac:(intros z [<-|Hz]; apply H; cbn; tauto)). lia. } lia.
  - pose proof (H x (or_introl eq_refl)). specialize (IH ltac:(intros; apply H; now right) H0). lia.
Qed.
Lemma alone_verdict n os x rest : heavy n os -> Permutation (x :: rest) (n :: os) -> (smass x <=? masses rest) = negb (smass n =? smass x).
Proof.
  intros (H0 & HH) HP. pose proof (masses_perm _ _ HP) as HS. unfold masses in HS. cbn [map fold_right] in HS. fold (masses rest) (masses os) in HS.
  assert (HX : smass x <= masses os \/ smass x = smass n).
  { assert (I : In x (n :: os)) by (apply (Permutation_in _ HP); now left). destruct I as [->|I]; [auto|]. left. now apply masses_in. }
  destruct (Z.eqb_spec (smass n) (smass x)) as [E|N]; cbn [negb]; [apply Z.leb_gt; lia|apply Z.leb_le; lia].
Qed.
Lemma heavy_kinematics f n os : heavy n os -> heavy (f n) os -> (forall o, In o os -> smass (f o) = smass o) -> keeps_kinematics f (n :: os).
Proof.
  intros HN HN' HO lhs rhs HP.
  assert (HF : heavy (f n) (map f os)).
  { destruct HN' as (A & B). split; [intros o Ho; apply in_map_iff in Ho; destruct Ho as (x & <- & Hx); rewrite HO by assumption; auto|].
    unfold masses in *. rewrite map_map. rewrite (map_ext_in _ smass) by (intros; now apply HO). exact B. }
  assert (HA : forall x rest, Permutation (map ispecie (x :: rest)) (n :: os) ->
    (smass (ispecie (relabel f x)) <=? mass_sum (map (relabel f) rest)) = (smass (ispecie x) <=? mass_sum rest)).
  { intros x rest HP'. cbn [map] in HP'. assert (EM : forall l, mass_sum l = masses (map ispecie l)) by (intros l; unfold mass_sum, masses; now rewrite map_map).
    rewrite !EM, map_map. cbn [relabel ispecie]. rewrite <- (map_map ispecie f).
    rewrite (alone_verdict n os (ispecie x) (map ispecie rest) HN HP'), (alone_verdict (f n) (map f os) (f (ispecie x)) (map f (map ispecie rest)) HF (Permutation_map f HP')).
    f_equal. assert (I : In (ispecie x) (n :: os)) by (apply (Permutation_in _ HP'); now left). destruct I as [<-|I]; [now rewrite !Z.eqb_refl|].
    rewrite (HO _ I). destruct HN as (Z0 & HH), HN' as (_ & HH'). pose proof (masses_in _ _ Z0 I).
    destruct (Z.eqb_spec (smass n) (smass (ispecie x))), (Z.eqb_spec (smass (f n)) (smass (ispecie x))); try reflexivity; lia. }
  unfold impossible. f_equal.
  - destruct lhs as [|x [|y t]]; cbn [map]; try reflexivity. apply HA. exact HP.
  - destruct rhs as [|x [|y t]]; cbn [map]; try reflexivity. apply HA. rewrite <- HP, !map_app. cbn [map]. apply Permutation_cons_append.
Qed.

Open Scope nat_scope.
Definition N0 (maj : bool) : lib := if maj then sterile_neutrino 30 (10 ^ 15)%Z else dirac_sterile_neutrino 30 (10 ^ 15)%Z.
Definition NN (maj : bool) (id : nat) (M : Z) : lib := if maj then sterile_neutrino id M else dirac_sterile_neutrino id M.
Definition swap (id : nat) (M : Z) (s : specie) : specie := if sid s =? 30 then mkSpecie id (sname s) M (majorana s) else s.
Lemma swap_kind id M : keeps_kind (swap id M).
Proof. intros s. unfold swap. now destruct (sid s =? 30). Qed.
Lemma swap_identity id M (l : list specie) : (forall s, In s l -> sid s = 30 \/ sid s <> id) -> keeps_identity (swap id M) l.
Proof.
  intros HF s s' Hs Hs'. unfold swap. pose proof (HF s Hs). pose proof (HF s' Hs').
  destruct (Nat.eqb_spec (sid s) 30), (Nat.eqb_spec (sid s') 30); cbn [sid].
  - rewrite e, e0. now rewrite !Nat.eqb_refl.
  - rewrite e. destruct (Nat.eqb_spec id (sid s')), (Nat.eqb_spec 30 (sid s')); try reflexivity; intuition congruence.
  - rewrite e. destruct (Nat.eqb_spec (sid s) id), (Nat.eqb_spec (sid s) 30); try reflexivity; intuition congruence.
  - reflexivity.
Qed.
Lemma weight_relabel f charged l r : keeps_kind f -> keeps_identity f l -> drawn l r -> weight charged (map (relabel f) r) = weight charged r.
Proof.
  intros HK HI HD. destruct r as [|h r]; [reflexivity|]. set (rr := h :: r) in *.
  assert (HC : forall sd, wcount sd (sid (f (ispecie h))) (map (relabel f) rr) = wcount sd (sid (ispecie h)) rr).
  { intros sd. unfold wcount. rewrite (filter_map_comm _ _ (fun it => (iside it =? sd)%Z && (sid (f (ispecie it)) =? sid (f (ispecie h))))) by reflexivity. rewrite map_length. f_equal.
    assert (HH : In (ispecie h) l) by (apply HD; now left). clearbody rr. revert HD. clear -HH HI. induction rr as [|x rr IH]; intros HD; [reflexivity|]. cbn [filter].
    rewrite (HI (ispecie x) (ispecie h)) by (try assumption; apply HD; now left). rewrite IH by (intros y Hy; apply HD; now right). reflexivity. }
  assert (HS : existsb (fun it => String.eqb sterile (sname (ispecie it))) (map (relabel f) rr) = existsb (fun it => String.eqb sterile (sname (ispecie it))) rr).
  { clearbody rr. clear -HK. induction rr as [|x rr IH]; [reflexivity|]. cbn [map existsb relabel ispecie]. now rewrite (proj1 (HK _)), IH. }
  assert (HW : wcreation (map (relabel f) rr) = wcreation rr) by (unfold wcreation; now rewrite map_map).
  assert (HA : forall x y, wapplies charged (map (relabel f) rr) (relabel f x) (relabel f y) = wapplies charged rr x y).
  { intros x y. unfold wapplies. rewrite HS, HW. cbn [relabel ispecie]. now rewrite (proj2 (HK _)), (proj1 (HK _)). }
  unfold weight. unfold rr at 1 4. cbn [map]. change (relabel f h :: map (relabel f) r) with (map (relabel f) rr). cbn [relabel ispecie]. rewrite (proj2 (HK _)). f_equal.
  unfold wmult. pose proof (HC (-1)%Z) as C1. pose proof (HC 1%Z) as C2. revert HA C1 C2. unfold rr. clear. cbn [map].
  destruct r as [|b [|c [|d [|e r]]]]; cbn [map]; intros HA C1 C2; try reflexivity; cbn [relabel ispecie] in *.
  - rewrite HA. change (sid (ispecie (relabel f h))) with (sid (f (ispecie h))). now rewrite C1, C2.
  - rewrite HA. change (sid (ispecie (relabel f h))) with (sid (f (ispecie h))). now rewrite C1, C2.
Qed.
Definition side_names (sd : Z) (r : list item) : list string := map (fun it => sname (ispecie it)) (filter (fun it => (iside it =? sd)%Z) r).
Lemma side_names_relabel f sd r : keeps_kind f -> side_names sd (map (relabel f) r) = side_names sd r.
Proof.
  intros HK. unfold side_names. rewrite (filter_map_comm _ _ (fun it => (iside it =? sd)%Z)) by reflexivity. rewrite map_map. apply map_ext. intros. cbn [relabel ispecie]. apply HK.
Qed.
Lemma first_name_relabel f r : keeps_kind f -> first_name (map (relabel f) r) = first_name r.
Proof. intros HK. destruct r; [reflexivity|]. cbn. apply HK. Qed.

(* the interactions of a sterile neutrino of any identity and mass *)
Definition others_of (t : tmpl) : list specie := filter (fun s => negb (sid s =? 30)) (fst (species_of t) ++ snd (species_of t)).
Definition swapped (id : nat) (M : Z) (t t' : tmpl) : Prop :=
  tflags t' = tflags t /\ species_of t' = (map (swap id M) (fst (species_of t)), map (swap id M) (snd (species_of t))).
(* t has one sterile neutrino, of identity 30, heavier than the other particles *)
Definition has_N0 (t : tmpl) : bool :=
  (length (fst (tparts t)) =? length (fst (tflags t))) && (length (snd (tparts t)) =? length (snd (tflags t))) &&
  match filter (fun s => sid s =? 30) (fst (species_of t) ++ snd (species_of t)) with
  | [n] => (masses (others_of t) <? smass n)%Z
  | _ => false
  end && forallb (fun s => (0 <=? smass s)%Z && (sid s <? 27)) (others_of t).
Lemma filter_partition {A} (p : A -> bool) l : Permutation l (filter p l ++ filter (fun x => negb (p x)) l).
Proof. induction l as [|x l IH]; cbn [filter]; [reflexivity|]. destruct (p x); cbn [negb app]; [now apply perm_skip|]. now apply Permutation_cons_app. Qed.
Lemma keeps_perm f l l' : Permutation l l' -> keeps_kinematics f l -> keeps_kinematics f l'.
Proof. intros HP H lhs rhs HL. apply H. now rewrite HL, HP. Qed.
Lemma swap_faithful id M t : has_N0 t = true -> 27 <= id -> (masses (others_of t) < M)%Z -> faithful (swap id M) (fst (species_of t) ++ snd (species_of t)).
Proof.
  intros H Hid HM. unfold has_N0 in H. apply andb_prop in H. destruct H as [H HO]. apply andb_prop in H. destruct H as [_ H]. rewrite forallb_forall in HO.
  set (l := fst (species_of t) ++ snd (species_of t)) in *.
  destruct (filter (fun s => sid s =? 30) l) as [|n [|]] eqn:EF; try discriminate. apply Z.ltb_lt in H.
  assert (HP : Permutation (n :: others_of t) l) by (pose proof (filter_partition (fun s => sid s =? 30) l) as P; rewrite EF in P; symmetry; exact P).
  assert (HO' : forall o, In o (others_of t) -> (0 <= smass o)%Z /\ sid o < 27).
  { intros o Ho. specialize (HO o Ho). apply andb_prop in HO. destruct HO as [A B]. apply Z.leb_le in A. apply Nat.ltb_lt in B. auto. }
  assert (Hn : sid n = 30) by (assert (I : In n (filter (fun s => sid s =? 30) l)) by (rewrite EF; now left); apply filter_In in I; now apply Nat.eqb_eq).
  split; [apply swap_kind|]. split.
  - apply swap_identity. intros s Hs. apply (Permutation_in _ (Permutation_sym HP)) in Hs. destruct Hs as [<-|Hs]; [now left|]. right. apply HO' in Hs. lia.
  - apply (keeps_perm _ _ _ HP), heavy_kinematics.
    + split; [intros o Ho; now apply HO'|exact H].
    + split; [intros o Ho; now apply HO'|]. unfold swap. rewrite Hn. exact HM.
    + intros o Ho. unfold swap. destruct (Nat.eqb_spec (sid o) 30) as [E|]; [|reflexivity]. apply HO' in Ho. lia.
Qed.
Lemma reactions_swap id M t t' : has_N0 t = true -> swapped id M t t' -> 27 <= id -> (masses (others_of t) < M)%Z ->
  reactions_of t' = map (map (relabel (swap id M))) (reactions_of t).
Proof.
  intros H (HF & HS) Hid HM. unfold reactions_of. rewrite HF, HS. rewrite reactions_relabel.
  - destruct (reactions_map (species_of t) (tflags t)); reflexivity.
  - unfold has_N0 in H. apply andb_prop in H. destruct H as [H _]. apply andb_prop in H. destruct H as [H _]. apply andb_prop in H. destruct H as [A B].
    apply Nat.eqb_eq in A, B. unfold flags_ok, species_of. cbn [fst snd]. now rewrite !map_length.
  - now apply swap_faithful.
Qed.

(* the events that remove sterile neutrinos or create a particle from them *)
Definition lone (n : lib) (names : list string) : bool := match names with [x] => String.eqb x (lname n) | _ => false end.
Definition decays_of (n : lib) (rs : list (list item)) : list (list item) := filter (fun r => lone n (side_names (-1) r)) rs.
Definition creations_of (n s : lib) (rs : list (list item)) : list (list item) :=
  filter (fun r => String.eqb (first_name r) (lname s) && lone n (side_names 1 r)) rs.
Definition all_reactions (l : list inter) : list (list item) := flat_map snd l.
Definition weights (charged : list string) (rs : list (list item)) : nat := fold_right Nat.add 0 (map (weight charged) rs).

Lemma filter_relabel f (p : list item -> bool) rs : (forall r, p (map (relabel f) r) = p r) -> filter p (map (map (relabel f)) rs) = map (map (relabel f)) (filter p rs).
Proof. intros H. now apply filter_map_comm. Qed.
Lemma weights_ok ks ls f l rs : sees ks ls -> names_tell ls = true -> keeps_kind f -> keeps_identity f l ->
  (forall r, In r rs -> drawn l r /\ (length r = 3 \/ length r = 4)) -> (forall s, In s l -> exists p, In p ls /\ f s = sp p) ->
  rsum (map (number_weight ks) (map (map (relabel f)) rs)) = Ok (INR (weights (charged_names ls) rs)).
Proof.
  intros HS HN HK HI HR HL. unfold weights. induction rs as [|r rs IH]; [reflexivity|]. cbn [map rsum fold_right].
  destruct (HR r (or_introl eq_refl)) as (HD & HLen).
  assert (HF : from_libs ls (map (relabel f) r)) by (intros it Hi; apply in_map_iff in Hi; destruct Hi as (x & <- & Hx); cbn [relabel ispecie]; apply HL, HD, Hx).
  rewrite (weight_ok ks ls _ HS HN HF) by (now rewrite map_length).
  rewrite IH by (intros q Hq; apply HR; now right). cbn [rbind]. rewrite (weight_relabel f _ l) by assumption. now rewrite plus_INR.
Qed.

(* the pairs of interactions *)
Lemma swap_N0 maj id M : swap id M (sp (N0 maj)) = sp (NN maj id M).
Proof. now destruct maj. Qed.
Lemma scattering_swap maj id M a b : swap id M (sp a) = sp a -> swap id M (sp b) = sp b -> 27 <= id ->
  has_N0 (fst (sterile_active_scattering (N0 maj) a b)) && has_N0 (snd (sterile_active_scattering (N0 maj) a b)) = true ->
  (masses (others_of (fst (sterile_active_scattering (N0 maj) a b))) < M)%Z -> (masses (others_of (snd (sterile_active_scattering (N0 maj) a b))) < M)%Z ->
  all_reactions (scattering_pair (NN maj id M) a b) = map (map (relabel (swap id M))) (all_reactions (scattering_pair (N0 maj) a b)).
Proof.
  intros Ea Eb Hid HH HM0 HM1. apply andb_prop in HH. destruct HH as [H0 H1].
  assert (S0 : swapped id M (fst (sterile_active_scattering (N0 maj) a b)) (fst (sterile_active_scattering (NN maj id M) a b))).
  { split; [reflexivity|]. unfold species_of, sterile_active_scattering, tmpl22. cbn [tparts fst snd map]. now rewrite swap_N0, Ea, Eb. }
  assert (S1 : swapped id M (snd (sterile_active_scattering (N0 maj) a b)) (snd (sterile_active_scattering (NN maj id M) a b))).
  { split; [reflexivity|]. unfold species_of, sterile_active_scattering, tmpl22. cbn [tparts fst snd map]. now rewrite swap_N0, Ea, Eb. }
  apply (reactions_swap id M _ _ H0) in S0; try assumption. apply (reactions_swap id M _ _ H1) in S1; try assumption.
  unfold scattering_pair, sterile_active_scattering in *. cbn [fst snd] in *. unfold all_reactions, plain. cbn [flat_map snd]. rewrite !app_nil_r, S0, S1, map_app. f_equal.
  rewrite map_map. rewrite (map_ext (fun r => first_name (map (relabel (swap id M)) r)) first_name) by (intros r; apply first_name_relabel, swap_kind).
  apply filter_relabel. intros r. now rewrite first_name_relabel by apply swap_kind.
Qed.
Lemma count_name_relabel f n sd r : keeps_kind f -> count_name n sd (map (relabel f) r) = count_name n sd r.
Proof.
  intros HK. unfold count_name. rewrite (filter_map_comm _ _ (fun it => (iside it =? sd)%Z && String.eqb (sname (ispecie it)) n)); [now rewrite map_length|].
  intros it. cbn [relabel iside ispecie]. now rewrite (proj1 (HK _)).
Qed.
Lemma nc_swap maj id M n l : swap id M (sp n) = sp n -> swap id M (sp l) = sp l -> 27 <= id ->
  has_N0 (fst (sterile_NC (N0 maj) n l)) && has_N0 (snd (sterile_NC (N0 maj) n l)) = true ->
  (masses (others_of (fst (sterile_NC (N0 maj) n l))) < M)%Z -> (masses (others_of (snd (sterile_NC (N0 maj) n l))) < M)%Z ->
  all_reactions (nc_pair (NN maj id M) n l) = map (map (relabel (swap id M))) (all_reactions (nc_pair (N0 maj) n l)).
Proof.
  intros En El Hid HH HM0 HM1. apply andb_prop in HH. destruct HH as [H0 H1].
  assert (S0 : swapped id M (fst (sterile_NC (N0 maj) n l)) (fst (sterile_NC (NN maj id M) n l))).
  { split; [reflexivity|]. unfold species_of, sterile_NC, tmpl22. cbn [tparts fst snd map]. now rewrite swap_N0, En, El. }
  assert (S1 : swapped id M (snd (sterile_NC (N0 maj) n l)) (snd (sterile_NC (NN maj id M) n l))).
  { split; [reflexivity|]. unfold species_of, sterile_NC, tmpl22. cbn [tparts fst snd map]. now rewrite swap_N0, En, El. }
  apply (reactions_swap id M _ _ H0) in S0; try assumption. apply (reactions_swap id M _ _ H1) in S1; try assumption.
  assert (HL : lname (NN maj id M) = lname (N0 maj)) by (now destruct maj).
  assert (HK : forall r, nc_keep (NN maj id M) l (map (relabel (swap id M)) r) = nc_keep (N0 maj) l r).
  { intros r. unfold nc_keep. now rewrite first_name_relabel, count_name_relabel, HL by apply swap_kind. }
  unfold nc_pair, sterile_NC in *. cbn [fst snd] in *. unfold all_reactions, plain.
  destruct (String.eqb (lname l) "Muon" || String.eqb (lname l) "Tau")%bool; cbn [flat_map snd]; rewrite !app_nil_r, S0, S1, map_app; [|reflexivity]. f_equal.
  - now apply filter_map_comm.
  - rewrite (filter_map_comm (map (relabel (swap id M))) _ _ (reactions_of _) HK). apply filter_relabel. intros r. now rewrite first_name_relabel by apply swap_kind.
Qed.
Lemma cc_swap maj id M n l ol : swap id M (sp n) = sp n -> swap id M (sp l) = sp l -> swap id M (sp ol) = sp ol -> 27 <= id ->
  has_N0 (fst (sterile_CC (N0 maj) n l ol)) && has_N0 (snd (sterile_CC (N0 maj) n l ol)) = true ->
  (masses (others_of (fst (sterile_CC (N0 maj) n l ol))) < M)%Z -> (masses (others_of (snd (sterile_CC (N0 maj) n l ol))) < M)%Z ->
  all_reactions (cc_pair (NN maj id M) n l ol) = map (map (relabel (swap id M))) (all_reactions (cc_pair (N0 maj) n l ol)).
Proof.
  intros En El Eo Hid HH HM0 HM1. apply andb_prop in HH. destruct HH as [H0 H1].
  assert (S0 : swapped id M (fst (sterile_CC (N0 maj) n l ol)) (fst (sterile_CC (NN maj id M) n l ol))).
  { split; [reflexivity|]. unfold species_of, sterile_CC, tmpl22. cbn [tparts fst snd map]. now rewrite swap_N0, En, El, Eo. }
  assert (S1 : swapped id M (snd (sterile_CC (N0 maj) n l ol)) (snd (sterile_CC (NN maj id M) n l ol))).
  { split; [reflexivity|]. unfold species_of, sterile_CC, tmpl22. cbn [tparts fst snd map]. now rewrite swap_N0, En, El, Eo. }
  apply (reactions_swap id M _ _ H0) in S0; try assumption. apply (reactions_swap id M _ _ H1) in S1; try assumption.
  assert (HL : lname (NN maj id M) = lname (N0 maj)) by (now destruct maj).
  assert (HK : forall r, cc_keep (NN maj id M) ol (map (relabel (swap id M)) r) = cc_keep (N0 maj) ol r).
  { intros r. unfold cc_keep. rewrite HL. rewrite (filter_map_comm _ _ (fun it => String.eqb (sname (ispecie it)) (lname ol) || String.eqb (sname (ispecie it)) (lname (N0 maj)))%bool).
    - now rewrite map_map.
    - intros it. cbn [relabel ispecie]. now rewrite (proj1 (swap_kind id M _)). }
  unfold cc_pair, sterile_CC in *. cbn [fst snd] in *. unfold all_reactions. cbn [flat_map snd]. rewrite !app_nil_r, S0, S1, map_app. f_equal; now apply filter_map_comm.
Qed.
Definition meson_pair (n x m : lib) : list inter := map plain (if (Q3 m =? 0)%Z then sterile_neutral_meson n x m else sterile_charged_meson n x m).
Lemma meson_swap maj id M x m : swap id M (sp x) = sp x -> swap id M (sp m) = sp m -> 27 <= id ->
  forallb (fun i => has_N0 (fst i)) (meson_pair (N0 maj) x m) = true -> (forall i, In i (meson_pair (N0 maj) x m) -> masses (others_of (fst i)) < M)%Z ->
  all_reactions (meson_pair (NN maj id M) x m) = map (map (relabel (swap id M))) (all_reactions (meson_pair (N0 maj) x m)).
Proof.
  intros Ex Em Hid HH HM. rewrite forallb_forall in HH.
  assert (G : forall fa fb fc, In (plain (tmpl12 (N0 maj) x m fa fb fc)) (meson_pair (N0 maj) x m) ->
    reactions_of (tmpl12 (NN maj id M) x m fa fb fc) = map (map (relabel (swap id M))) (reactions_of (tmpl12 (N0 maj) x m fa fb fc))).
  { intros fa fb fc HI. apply reactions_swap; [exact (HH _ HI)| |exact Hid|exact (HM _ HI)].
    split; [reflexivity|]. unfold species_of, tmpl12. cbn [tparts fst snd map]. now rewrite swap_N0, Ex, Em. }
  unfold meson_pair, sterile_neutral_meson, sterile_charged_meson in *. destruct (Q3 m =? 0)%Z; unfold all_reactions; cbn [map flat_map plain snd]; rewrite !app_nil_r, map_app.
  - rewrite !G; [reflexivity| |]; cbn; auto.
  - rewrite !G; [reflexivity| |]; cbn; auto.
Qed.
