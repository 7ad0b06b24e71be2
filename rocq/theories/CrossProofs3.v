(* proofs about CrossModel: deduplication *)
From Coq Require Import Permutation Sorted Reals Lra.
From Verif Require Import Base CrossModel CrossProofs CrossProofs2.
From Verif Require ReactionsProofs.
Open Scope R_scope.

(* same first particle, same species on both sides *)
Definition similar (i j : integral) : Prop :=
  sid (particle i) = sid (particle j) /\
  Permutation (map (fun it => sid (ispecie it)) (lefts (ireaction i))) (map (fun it => sid (ispecie it)) (lefts (ireaction j))) /\
  Permutation (map (fun it => sid (ispecie it)) (rights (ireaction i))) (map (fun it => sid (ispecie it)) (rights (ireaction j))).

Lemma counter_eqb_spec a b : counter_eqb a b = true <-> Permutation a b.
Proof.
  unfold counter_eqb. rewrite forallb_forall, (Permutation_count_occ Nat.eq_dec). split.
  - intros H x. destruct (in_dec Nat.eq_dec x (a ++ b)) as [I|I]; [apply H in I; now apply Nat.eqb_eq in I|].
    rewrite (proj1 (count_occ_not_In Nat.eq_dec a x)), (proj1 (count_occ_not_In Nat.eq_dec b x)); auto; intros J; apply I; apply in_or_app; auto.
  - intros H x _. apply Nat.eqb_eq, H.
Qed.
Lemma same_integral_spec i j : same_integral i j = true <-> similar i j.
Proof. unfold same_integral, similar, species_on. rewrite !Bool.andb_true_iff, !counter_eqb_spec, Nat.eqb_eq. reflexivity. Qed.
Lemma similar_refl i : similar i i.
Proof. repeat split; reflexivity. Qed.
Lemma similar_sym i j : similar i j -> similar j i.
Proof. intros (A & B & C). repeat split; symmetry; assumption. Qed.
Lemma similar_trans i j k : similar i j -> similar j k -> similar i k.
Proof. intros (A & B & C) (A' & B' & C'). split; [congruence|]. split; eapply perm_trans; eauto. Qed.

(* matrix elements of the K1/K2 form *)
Definition plain (M : mel) : Prop := exists i j k l K1 K2, M = M4 [i; j; k; l] K1 K2 0.
Definition total (l : list mel) (p : nat -> vec4) (m : nat -> R) : R := fold_right Rplus 0 (map (fun M => Msq M p m) l).
Lemma total_app a b p m : total (a ++ b) p m = total a p m + total b p m.
Proof. unfold total. induction a as [|x t IH]; cbn; [lra|]. rewrite IH. lra. Qed.

Lemma neqb_eq a b : neqb a b = true <-> a = b.
Proof.
  revert b. induction a as [|x a IH]; intros [|y b]; cbn; split; intros H; try discriminate; auto.
  - apply Bool.andb_true_iff in H. destruct H as (H1 & H2). apply Nat.eqb_eq in H1. apply IH in H2. congruence.
  - injection H as -> ->. rewrite Nat.eqb_refl. cbn. now apply IH.
Qed.
Lemma stack_total old new : plain old -> plain new -> exists b, stackable old new = Ok b /\
  (b = true -> exists s, iadd old new = Ok s /\ plain s /\ forall p m, Msq s p m = Msq old p m + Msq new p m).
Proof.
  intros (i & j & k & l & K1 & K2 & ->) (i' & j' & k' & l' & K1' & K2' & ->). cbn [stackable]. eexists. split; [reflexivity|].
  intros H. cbn [iadd]. exists (M4 [i; j; k; l] (K1 + K1') (K2 + K2') 0). split; [reflexivity|]. split; [now exists i, j, k, l, (K1 + K1'), (K2 + K2')|].
  intros p m. apply Bool.orb_true_iff in H. destruct H as [H|H].
  - apply neqb_eq in H. injection H as <- <- <- <-. cbn [Msq]. ring.
  - apply Bool.andb_true_iff in H. destruct H as (H & HK). cbn [skipn firstn app] in H. apply neqb_eq in H. injection H as <- <- <- <-.
    destruct (Req_EM_T K2 K2') as [E|]; [|discriminate]. destruct (Req_EM_T K2' 0) as [E'|]; [|discriminate]. subst K2 K2'. cbn [Msq]. ring.
Qed.
Lemma plain_K M : plain M -> K_of M = 0.
Proof. intros (i & j & k & l & K1 & K2 & ->). reflexivity. Qed.
Lemma reduce_total new : plain new -> forall olds, Forall plain olds -> exists r, reduce olds new = Ok r /\
  match r with
  | None => True
  | Some olds' => Forall plain olds' /\ forall p m, total olds' p m = total olds p m + Msq new p m
  end.
Proof.
  intros Hn. induction olds as [|old t IH]; intros HF; cbn [reduce].
  - exists None. auto.
  - inversion HF as [|? ? H1 H2]; subst. rewrite (plain_K _ H1). destruct (Req_EM_T 0 0) as [_|N]; [|contradiction].
    destruct (stack_total old new H1 Hn) as (b & -> & Hb). cbn [rbind]. destruct b.
    + destruct (Hb eq_refl) as (s & -> & Hs & HM). cbn [rbind]. eexists. split; [reflexivity|]. split; [now constructor|].
      intros p m. unfold total. cbn. rewrite HM. lra.
    + destruct (IH H2) as (r & -> & Hr). cbn [rbind]. exists (option_map (cons old) r). split; [reflexivity|].
      destruct r as [olds'|]; cbn [option_map]; auto. destruct Hr as (Hp & Ht). split; [now constructor|].
      intros p m. specialize (Ht p m). unfold total in *. cbn. lra.
Qed.
Lemma merge_total news : Forall plain news -> forall olds extra, Forall plain olds -> Forall plain extra ->
  exists r, rfold merge_step (olds, extra) news = Ok r /\ Forall plain (fst r ++ snd r) /\
  forall p m, total (fst r ++ snd r) p m = total olds p m + total extra p m + total news p m.
Proof.
  induction news as [|new t IH]; intros Hn olds extra Ho He.
  - exists (olds, extra). cbn [rfold fst snd]. split; [reflexivity|]. split; [now apply Forall_app|]. intros. rewrite total_app. unfold total. cbn. lra.
  - inversion Hn as [|? ? H1 H2]; subst. cbn [rfold merge_step]. destruct (reduce_total new H1 olds Ho) as (r & -> & Hr). cbn [rbind].
    destruct r as [olds'|].
    + destruct Hr as (Hp & Ht). destruct (IH H2 olds' extra Hp He) as (r & -> & Hr & HT). exists r. split; [reflexivity|]. split; [exact Hr|].
      intros p m. rewrite HT, Ht. unfold total. cbn. lra.
    + destruct (IH H2 olds (extra ++ [new]) Ho) as (r & -> & Hr' & HT); [apply Forall_app; auto|]. exists r. split; [reflexivity|]. split; [exact Hr'|].
      intros p m. rewrite HT, total_app. unfold total. cbn. lra.
Qed.
Lemma merge_Ms_total olds news : Forall plain olds -> Forall plain news ->
  exists ms, merge_Ms olds news = Ok ms /\ Forall plain ms /\ forall p m, total ms p m = total olds p m + total news p m.
Proof.
  intros Ho Hn. unfold merge_Ms. destruct (merge_total news Hn olds [] Ho ltac:(constructor)) as (r & -> & Hr & HT). cbn [rbind].
  exists (fst r ++ snd r). split; [reflexivity|]. split; [exact Hr|]. intros p m. rewrite HT. unfold total. cbn. lra.
Qed.

(* the list of integrals *)
Definition header (i : integral) : specie * list item := (particle i, ireaction i).
Definition all_plain (l : list integral) : Prop := Forall (fun i => Forall plain (Ms i)) l.
Definition similar_b (i j : integral) : bool := same_integral i j.
Lemma similar_header i j i' j' : header i = header i' -> header j = header j' -> similar i j -> similar i' j'.
Proof. unfold header, similar. intros E E'. injection E as -> ->. injection E' as -> ->. auto. Qed.
(* sum over the integrals of a class *)
Definition class_total (l : list integral) (o : integral) (p : nat -> vec4) (m : nat -> R) : R :=
  fold_right Rplus 0 (map (fun i => total (Ms i) p m) (filter (fun i => same_integral i o) l)).

Lemma same_header i o o' : header o = header o' -> same_integral i o = same_integral i o'.
Proof. unfold header, same_integral. intros E. injection E as -> ->. reflexivity. Qed.
Lemma append_spec new : Forall plain (Ms new) -> forall l, all_plain l -> ForallOrdPairs (fun i j => ~ similar i j) l ->
  exists l', append new l = Ok l' /\ all_plain l' /\
  (map header l' = map header l /\ (exists o, In o l /\ similar new o) \/ map header l' = map header l ++ [header new] /\ (forall o, In o l -> ~ similar new o)) /\
  Forall2 (fun o o' => header o = header o' /\ forall p m, total (Ms o') p m = total (Ms o) p m + (if same_integral new o then total (Ms new) p m else 0)) l (firstn (length l) l') /\
  (forall o', In o' (skipn (length l) l') -> o' = new).
Proof.
  intros Hn. induction l as [|old t IH]; intros HF HO; cbn [append].
  - exists [new]. split; [reflexivity|]. split; [repeat constructor; auto|]. split; [right; split; [reflexivity|]; intros o []|]. split; [constructor|].
    cbn. intros o' [<-|[]]; reflexivity.
  - inversion HF as [|? ? H1 H2]; subst. inversion HO as [|? ? HO1 HO2]; subst. destruct (same_integral new old) eqn:E.
    + destruct (merge_Ms_total (Ms old) (Ms new) H1 Hn) as (ms & -> & Hp & HT). cbn [rbind]. eexists. split; [reflexivity|].
      split; [constructor; auto|]. split; [left; split; [reflexivity|]; exists old; split; [now left|]; now apply same_integral_spec|]. split.
      * cbn [length firstn]. constructor.
        -- split; [reflexivity|]. intros p m. cbn [Ms]. rewrite E. apply HT.
        -- rewrite firstn_all. apply same_integral_spec in E. rewrite Forall_forall in HO1.
           clear -HO1 E. induction t as [|x t IH]; [constructor|]. constructor.
           ++ split; [reflexivity|]. intros p m. destruct (same_integral new x) eqn:E'; [|lra].
              exfalso. apply same_integral_spec in E'. apply (HO1 x); [now left|]. eapply similar_trans; [apply similar_sym; exact E|exact E'].
           ++ apply IH. intros y Hy. apply HO1. now right.
      * cbn [length skipn]. rewrite skipn_all. intros o' [].
    + destruct (IH H2 HO2) as (l' & -> & Hp & Hh & HT & HS). cbn [rbind]. exists (old :: l'). split; [reflexivity|]. split; [constructor; auto|].
      assert (NE : ~ similar new old) by (intros S1; apply same_integral_spec in S1; congruence). split; [|split].
      * destruct Hh as [(Hh & o & Ho & So)|(Hh & Ho)].
        -- left. split; [cbn; now rewrite Hh|]. exists o. split; [now right|exact So].
        -- right. split; [cbn; now rewrite Hh|]. intros o [<-|Hin]; auto.
      * cbn [length firstn]. constructor; [|exact HT]. split; [reflexivity|]. intros p m. rewrite E. lra.
      * cbn [length skipn]. exact HS.
Qed.

(* first occurrences *)
Fixpoint firsts (seen : list integral) (l : list integral) : list integral :=
  match l with
  | [] => []
  | i :: t => if existsb (same_integral i) seen then firsts seen t else i :: firsts (seen ++ [i]) t
  end.
Lemma ordpairs_app_one {A} (P : A -> A -> Prop) l x : ForallOrdPairs P l -> (forall y, In y l -> P y x) -> ForallOrdPairs P (l ++ [x]).
Proof.
  intros H. induction H as [|y t H1 H2 IH]; cbn; intros HX; [repeat constructor|].
  constructor; [|apply IH; intros; apply HX; now right]. apply Forall_app. split; [exact H1|]. constructor; [apply HX; now left|constructor].
Qed.
Lemma ordpairs_header l l' : map header l = map header l' -> ForallOrdPairs (fun i j => ~ similar i j) l -> ForallOrdPairs (fun i j => ~ similar i j) l'.
Proof.
  revert l'. induction l as [|x t IH]; intros [|y t'] E H; try discriminate; [constructor|]. cbn [map] in E. injection E as E0 E1 E2.
  assert (Exy : header x = header y) by (unfold header; congruence). clear E0 E1. inversion H as [|? ? H1 H2]; subst. constructor; [|now apply IH].
  rewrite Forall_forall in *. intros z Hz. apply (in_map header) in Hz. rewrite <- E2 in Hz. apply in_map_iff in Hz. destruct Hz as (w & Ew & Hw).
  intros S1. apply (H1 w Hw). eapply similar_header; [| |exact S1]; auto.
Qed.
Lemma existsb_header i seen seen' : map header seen = map header seen' -> existsb (same_integral i) seen = existsb (same_integral i) seen'.
Proof.
  revert seen'. induction seen as [|x t IH]; intros [|y t'] E; try discriminate; auto. cbn [map] in E. injection E as E0 E1 E2.
  assert (Exy : header x = header y) by (unfold header; congruence). cbn. rewrite (same_header i x y Exy), (IH t' E2). reflexivity.
Qed.
Lemma firsts_header l : forall seen seen', map header seen = map header seen' -> firsts seen l = firsts seen' l.
Proof.
  induction l as [|i t IH]; intros seen seen' E; cbn; auto. rewrite (existsb_header i seen seen' E).
  destruct (existsb _ _); [now apply IH|]. f_equal. apply IH. rewrite !map_app. now rewrite E.
Qed.

Lemma dedup_loop l : forall acc, all_plain l -> all_plain acc -> ForallOrdPairs (fun i j => ~ similar i j) acc ->
  exists out, rfold (fun acc i => append i acc) acc l = Ok out /\ all_plain out /\ ForallOrdPairs (fun i j => ~ similar i j) out /\
  map header out = map header acc ++ map header (firsts acc l) /\
  forall o, In o out -> forall p m, total (Ms o) p m =
    fold_right Rplus 0 (map (fun i => total (Ms i) p m) (filter (fun i => same_integral i o) (acc ++ l))).
Proof.
  induction l as [|new t IH]; intros acc HL HA HO.
  - exists acc. cbn. split; [reflexivity|]. split; [exact HA|]. split; [exact HO|]. split; [now rewrite app_nil_r|].
    intros o Ho p m. rewrite app_nil_r. clear HA HL. induction HO as [|x t H1 H2 IH]; [destruct Ho|]. cbn [filter]. rewrite Forall_forall in H1.
    destruct Ho as [<-|Ho].
    + rewrite (proj2 (same_integral_spec x x) (similar_refl x)). cbn.
      rewrite filter_none; [cbn; lra|]. intros y Hy. apply Bool.not_true_iff_false. intros S1. apply same_integral_spec in S1.
      apply (H1 y Hy). now apply similar_sym.
    + destruct (same_integral x o) eqn:S1; [exfalso; apply same_integral_spec in S1; now apply (H1 o Ho)|]. now apply IH.
  - inversion HL as [|? ? H1 H2]; subst. cbn [rfold]. destruct (append_spec new H1 acc HA HO) as (acc' & -> & HA' & Hh & HF & HS).
    assert (HO' : ForallOrdPairs (fun i j => ~ similar i j) acc').
    { destruct Hh as [(Hh & _)|(Hh & Hn)].
      - eapply ordpairs_header; [symmetry; exact Hh|exact HO].
      - apply (ordpairs_header (acc ++ [new])); [now rewrite map_app|]. apply ordpairs_app_one; auto. intros y Hy S1. apply (Hn y Hy). now apply similar_sym. }
    destruct (IH acc' H2 HA' HO') as (out & E & P1 & P2 & P3 & P4). exists out. split; [exact E|]. split; [exact P1|]. split; [exact P2|]. split.
    + rewrite P3. cbn [firsts]. destruct Hh as [(Hh & o & Ho & So)|(Hh & Hn)].
      * replace (existsb (same_integral new) acc) with true by (symmetry; apply existsb_exists; exists o; split; [exact Ho|now apply same_integral_spec]).
        rewrite Hh. now rewrite (firsts_header t acc' acc Hh).
      * replace (existsb (same_integral new) acc) with false.
        2: { symmetry. apply Bool.not_true_iff_false. rewrite existsb_exists. intros (o & Ho & S1). apply (Hn o Ho). now apply same_integral_spec. }
        rewrite Hh. cbn [map]. rewrite <- app_assoc. cbn. do 2 f_equal. f_equal. apply firsts_header. now rewrite Hh, map_app.
    + intros o Ho p m. rewrite (P4 o Ho p m).
      rewrite !filter_app, !map_app. cbn [filter].
      enough (G : fold_right Rplus 0 (map (fun i => total (Ms i) p m) (filter (fun i => same_integral i o) acc')) =
                  fold_right Rplus 0 (map (fun i => total (Ms i) p m) (filter (fun i => same_integral i o) acc)) + (if same_integral new o then total (Ms new) p m else 0)).
      { assert (FA : forall a b : list R, fold_right Rplus 0 (a ++ b) = fold_right Rplus 0 a + fold_right Rplus 0 b).
        { induction a as [|x a IHa]; intros b; cbn; [lra|]. rewrite IHa. lra. }
        rewrite !FA, G. destruct (same_integral new o); cbn; lra. }
      assert (Hsim : forall x y, similar x y -> same_integral x o = same_integral y o).
      { intros x y S1. destruct (same_integral x o) eqn:E1, (same_integral y o) eqn:E2; auto.
        - apply same_integral_spec in E1. assert (same_integral y o = true) by (apply same_integral_spec; eapply similar_trans; [apply similar_sym; exact S1|exact E1]). congruence.
        - apply same_integral_spec in E2. assert (same_integral x o = true) by (apply same_integral_spec; eapply similar_trans; eauto). congruence. }
      assert (Hhead : forall x y, header x = header y -> same_integral x o = same_integral y o).
      { intros x y E1. apply Hsim. apply (similar_header x x x y); auto. apply similar_refl. }
      (* the old part *)
      assert (GO : forall a b, Forall2 (fun o o' => header o = header o' /\ forall p m, total (Ms o') p m = total (Ms o) p m + (if same_integral new o then total (Ms new) p m else 0)) a b ->
        ForallOrdPairs (fun i j => ~ similar i j) a ->
        fold_right Rplus 0 (map (fun i => total (Ms i) p m) (filter (fun i => same_integral i o) b)) =
        fold_right Rplus 0 (map (fun i => total (Ms i) p m) (filter (fun i => same_integral i o) a)) +
        (if existsb (same_integral new) a then (if same_integral new o then total (Ms new) p m else 0) else 0)).
      { intros a b HFab. induction HFab as [|x y a b (Hxy & Txy) HFab IHab]; intros HOa; cbn; [lra|]. inversion HOa as [|? ? O1 O2]; subst.
        rewrite <- (Hhead x y Hxy). specialize (IHab O2). specialize (Txy p m). rewrite Forall_forall in O1.
        destruct (same_integral new x) eqn:Ex.
        - assert (existsb (same_integral new) a = false) as EA.
          { apply Bool.not_true_iff_false. rewrite existsb_exists. intros (z & Hz & S1). apply (O1 z Hz).
            eapply similar_trans; [apply similar_sym; apply same_integral_spec; exact Ex|now apply same_integral_spec]. }
          rewrite EA in IHab. cbn [orb]. rewrite (Hsim new x) by (now apply same_integral_spec).
          destruct (same_integral x o); cbn; rewrite ?Txy, IHab; lra.
        - cbn [orb]. destruct (same_integral x o); cbn; rewrite ?Txy, IHab; lra. }
      assert (Esplit : acc' = firstn (length acc) acc' ++ skipn (length acc) acc') by (now rewrite firstn_skipn).
      rewrite Esplit at 1. rewrite filter_app, map_app.
      assert (FA : forall a b : list R, fold_right Rplus 0 (a ++ b) = fold_right Rplus 0 a + fold_right Rplus 0 b).
      { induction a as [|x a IHa]; intros b; cbn; [lra|]. rewrite IHa. lra. }
      rewrite FA, (GO _ _ HF HO).
      destruct Hh as [(Hh & o1 & Ho1 & So1)|(Hh & Hn)].
      * replace (existsb (same_integral new) acc) with true by (symmetry; apply existsb_exists; exists o1; split; [exact Ho1|now apply same_integral_spec]).
        assert (length acc' = length acc) as EL by (rewrite <- (map_length header acc'), Hh; apply map_length).
        rewrite <- EL, skipn_all. cbn. lra.
      * replace (existsb (same_integral new) acc) with false.
        2: { symmetry. apply Bool.not_true_iff_false. rewrite existsb_exists. intros (z & Hz & S1). apply (Hn z Hz). now apply same_integral_spec. }
        assert (length acc' = S (length acc)) as EL by (rewrite <- (map_length header acc'), Hh, app_length, map_length; cbn; lia).
        assert (ES : skipn (length acc) acc' = [new]).
        { destruct (skipn (length acc) acc') as [|z [|w r]] eqn:Es.
          - apply (f_equal (@length integral)) in Es. rewrite skipn_length in Es. cbn in Es. lia.
          - rewrite (HS z) by now left. reflexivity.
          - apply (f_equal (@length integral)) in Es. rewrite skipn_length in Es. cbn in Es. lia. }
        rewrite ES. cbn [filter]. destruct (same_integral new o); cbn; lra.
Qed.
Lemma dedup_spec l : all_plain l -> exists out, deduplicate l = Ok out /\ all_plain out /\
  ForallOrdPairs (fun i j => ~ similar i j) out /\ map header out = map header (firsts [] l) /\
  forall o, In o out -> forall p m, total (Ms o) p m = class_total l o p m.
Proof.
  intros HL. destruct (dedup_loop l [] HL) as (out & E & P1 & P2 & P3 & P4); [constructor|constructor|].
  exists out. auto.
Qed.
Lemma firsts_represents l i : forall seen, In i l -> (exists o, In o seen /\ similar i o) \/ exists o, In o (firsts seen l) /\ similar i o.
Proof.
  induction l as [|x t IH]; intros seen H; [destruct H|]. destruct H as [->|H]; cbn [firsts].
  - destruct (existsb (same_integral i) seen) eqn:E.
    + left. apply existsb_exists in E. destruct E as (o & Ho & S1). exists o. split; [exact Ho|now apply same_integral_spec].
    + right. exists i. split; [now left|apply similar_refl].
  - destruct (existsb (same_integral x) seen) eqn:E; [now apply IH|].
    destruct (IH (seen ++ [x]) H) as [(o & Ho & So)|(o & Ho & So)].
    + apply in_app_or in Ho. destruct Ho as [Ho|[->|[]]]; [left; eauto|]. right. exists o. split; [now left|exact So].
    + right. exists o. split; [now right|exact So].
Qed.
