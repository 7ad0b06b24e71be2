From Coq Require Import Reals Lra.
From Verif Require Import Base EvolveModel.
Open Scope R_scope.

(* ---------- independent specification ---------- *)
(* order on float values *)
Definition xlt_spec (x y : xr) : Prop :=
  match x, y with
  | NaN, _ | _, NaN => False
  | NInf, NInf | PInf, PInf => False
  | NInf, _ | _, PInf => True
  | _, NInf | PInf, _ => False
  | Fin a, Fin b => a < b
  end.
Definition xle_spec (x y : xr) : Prop :=
  x <> NaN /\ y <> NaN /\ (xlt_spec x y \/ x = y).

Lemma xgt_iff x y : xgt x y = true <-> xlt_spec y x.
Proof.
  destruct x, y; simpl; try (destruct (Rlt_dec _ _)); split; intros; try discriminate; try contradiction; auto.
Qed.
Lemma xle_iff x y : xle x y = true <-> xle_spec x y.
Proof.
  unfold xle_spec. destruct x, y; simpl; try (destruct (Rle_dec _ _) as [H|H]); split;
    try discriminate; try (intros (H1 & H2 & [H3|H3]); (contradiction || discriminate || congruence || lra));
    try (intros _; repeat split; (discriminate || auto; fail)); auto.
  - intros _. repeat split; try discriminate. destruct (Rle_lt_or_eq_dec _ _ H); [left; auto|right; congruence].
  - intros (_ & _ & [HL|HE]); [lra|]. injection HE. lra.
Qed.
Lemma xgt_false x y : xgt x y = false -> x = NaN \/ y = NaN \/ xle_spec x y.
Proof.
  intros H. destruct (xle x y) eqn:E; [right; right; now apply xle_iff|].
  destruct x, y; simpl in *; auto; try discriminate.
  destruct (Rlt_dec r0 r); [discriminate|]. destruct (Rle_dec r r0); [discriminate|lra].
Qed.

Lemma last_cons {A} (l : list A) a d : last (a :: l) d = last l a.
Proof.
  revert a d. induction l as [|b l IH]; intros a d; [reflexivity|].
  change (last (a :: b :: l) d) with (last (b :: l) d). now rewrite !IH.
Qed.
Lemma last_firstn_removelast {A} (l : list A) : forall s0 k d, (k < length l)%nat ->
  last (firstn k l) s0 = nth k (removelast (s0 :: l)) d.
Proof.
  induction l as [|a l IH]; intros s0 k d Hk; [cbn in Hk; lia|].
  change (removelast (s0 :: a :: l)) with (s0 :: removelast (a :: l)).
  destruct k as [|k]; [reflexivity|]. cbn [length] in Hk. cbn [firstn nth].
  rewrite last_cons. apply IH. lia.
Qed.

Section Spec.
Context {St row krow : Type} (w : world St row krow).
Notation universe := (universe St row krow).

(* a sequence of successful physics steps; the physics may look at the rows
   recorded so far *)
Inductive traj : list row -> St -> list St -> Prop :=
| traj_nil hist s : traj hist s []
| traj_cons hist s s' l : make_step w s hist = inl s' ->
    traj (hist ++ [row_of w s']) s' l -> traj hist s (s' :: l).

Definition cold (s : St) : bool := xle (temp w s) (T_kawano w).

Definition is_prefix {A} (l l' : list A) : Prop := exists r, l' = l ++ r.
Definition snapshot_ok {A} (c : option (list A)) (data : list A) : Prop :=
  match c with None => True | Some l => is_prefix l data end.

Lemma is_prefix_app {A} (l l' r : list A) : is_prefix l l' -> is_prefix l (l' ++ r).
Proof. intros (x & ->). exists (x ++ r). now rewrite app_assoc. Qed.

(* ---------- save and body ---------- *)
Lemma save_done u u' : save w u = Done u' ->
  ust u' = ust u /\ udata u' = udata u ++ [row_of w (ust u)] /\ ustep u' = ustep u /\
  (if kawano w && cold (ust u) then exists k, rates w (ust u) = inl k /\ folder w = true /\
       ukdata u' = ukdata u ++ [k] /\ uev u' = uev u ++ [PutS k] /\ closedS (uev u) = false
   else ukdata u' = ukdata u /\ uev u' = uev u).
Proof.
  unfold save, cold. cbn -[closedS]. destruct (kawano w && xle (temp w (ust u)) (T_kawano w)).
  - destruct (rates w (ust u)) as [k|e]; [|discriminate].
    destruct (folder w); [|discriminate]. destruct (closedS (uev u)) eqn:HC; [discriminate|].
    intros E; injection E as <-. cbn -[closedS]. repeat split; auto. exists k. auto.
  - intros E; injection E as <-. cbn. auto.
Qed.

Definition exports (u' : universe) : bool := folder w && (Nat.modulo (ustep u') (export_freq w) =? 0)%nat.
Definition snapshot_events (u' : universe) : list (fileop row krow) :=
  if exports u' then (TruncE :: map PutE (udata u')) ++ (if kawano w then TruncK :: map PutK (ukdata u') else [])
  else [].

Lemma body_done u u' : body w u = Done u' ->
  exists s, make_step w (ust u) (udata u) = inl s /\ ust u' = s /\
  udata u' = udata u ++ [row_of w s] /\ ustep u' = S (ustep u) /\
  exists ks, ukdata u' = ukdata u ++ ks /\
    uev u' = (uev u ++ map PutS ks) ++ snapshot_events u' /\
    Forall2 (fun s k => rates w s = inl k) (if kawano w && cold s then [s] else []) ks /\
    (ks <> [] -> folder w = true /\ closedS (uev u) = false).
Proof.
  unfold body. destruct (make_step w (ust u) (udata u)) as [s|e] eqn:HM; [|discriminate].
  destruct (save w (with_st u s)) as [u1|e u1] eqn:HS; [|discriminate].
  apply save_done in HS. cbn [with_st ust udata ustep ukdata uev] in HS. destruct HS as (H1 & H2 & H3 & H4).
  intros E. exists s. split; [reflexivity|].
  set (u2 := mkU (ust u1) (udata u1) (ukdata u1) (S (ustep u1)) (uev u1)) in *.
  assert (HA : ust u' = ust u2 /\ udata u' = udata u2 /\ ustep u' = ustep u2 /\ ukdata u' = ukdata u2 /\
               uev u' = uev u2 ++ snapshot_events u2).
  { change (S (ustep u1)) with (ustep u2) in E. unfold snapshot_events, exports.
    destruct (folder w && (ustep u2 mod export_freq w =? 0)%nat).
    - injection E as <-. destruct (kawano w); cbn; repeat split; now rewrite ?app_nil_r, <- ?app_assoc.
    - injection E as <-. rewrite app_nil_r. auto. }
  destruct HA as (A1 & A2 & A3 & A4 & A5). cbn in A1, A2, A3, A4.
  assert (HSE : snapshot_events u2 = snapshot_events u').
  { unfold snapshot_events, exports. rewrite A3, A2, A4. reflexivity. }
  split; [congruence|]. split; [congruence|]. split; [cbn in A3; congruence|].
  rewrite <- HSE, A5. cbn [uev u2]. rewrite A4. cbn [ukdata u2].
  destruct (kawano w && cold s).
  - destruct H4 as (k & Hk & Hf & H5 & H6 & H7). exists [k]. rewrite H5, H6. cbn [map app].
    split; [reflexivity|]. split; [reflexivity|]. split; [now constructor|]. intros _. now split.
  - destruct H4 as (H5 & H6). exists []. rewrite H5, H6, !app_nil_r.
    split; [reflexivity|]. split; [reflexivity|]. split; [constructor|]. intros X. now destruct X.
Qed.

Lemma iterate_snoc n : forall u, iterate w (S n) u =
  match iterate w n u with Done u' => body w u' | Fail e u' => Fail e u' end.
Proof.
  induction n as [|n IH]; intros u.
  - cbn. destruct (body w u); reflexivity.
  - change (iterate w (S (S n)) u) with (match body w u with Done u' => iterate w (S n) u' | Fail e u' => Fail e u' end).
    cbn [iterate]. destruct (body w u) as [u'|e u']; [|reflexivity]. apply IH.
Qed.

Lemma iterate_done n : forall u u', iterate w n u = Done u' ->
  exists l, length l = n /\ traj (udata u) (ust u) l /\ ust u' = last l (ust u) /\
    udata u' = udata u ++ map (row_of w) l /\ ustep u' = (ustep u + n)%nat /\
    exists ks, ukdata u' = ukdata u ++ ks /\
      Forall2 (fun s k => rates w s = inl k) (if kawano w then filter cold l else []) ks.
Proof.
  induction n as [|n IH]; intros u u' H.
  - injection H as <-. exists []. cbn. repeat split; try constructor.
    + now rewrite app_nil_r.
    + lia.
    + exists []. rewrite app_nil_r. split; [reflexivity|]. destruct (kawano w); constructor.
  - cbn in H. destruct (body w u) as [u1|e u1] eqn:HB; [|discriminate].
    destruct (body_done u u1 HB) as (s & HM & HS & HD & HN & ks & HK & _ & HR & _).
    destruct (IH u1 u' H) as (l & HL & HT & HST & HDD & HNN & ks' & HK' & HR').
    exists (s :: l). cbn [length map]. split; [lia|]. split.
    { econstructor; [exact HM|]. rewrite <- HD, <- HS. exact HT. }
    split. { rewrite HST, HS. symmetry. apply last_cons. }
    split. { rewrite HDD, HD, <- app_assoc. reflexivity. }
    split; [lia|].
    exists (ks ++ ks'). split; [now rewrite HK', HK, app_assoc|].
    cbn [filter]. destruct (kawano w); cbn [andb] in HR.
    + destruct (cold s); [|].
      * change (s :: filter cold l) with ([s] ++ filter cold l). now apply Forall2_app.
      * change (filter cold l) with ([] ++ filter cold l). now apply Forall2_app.
    + change (@nil St) with (@nil St ++ @nil St). now apply Forall2_app.
Qed.

Lemma traj_fun l : forall l' hist s, traj hist s l -> traj hist s l' -> length l = length l' -> l = l'.
Proof.
  induction l as [|a l IH]; intros [|b l'] hist s H H' HL; try discriminate; [reflexivity|].
  inversion H as [|? ? ? ? HM1 HT1]; inversion H' as [|? ? ? ? HM2 HT2]; subst.
  rewrite HM1 in HM2. injection HM2 as <-. f_equal. eapply IH; eauto.
Qed.

(* temperatures of all states before the final one *)
Lemma loop_done fuel Tf : forall u o, loop w fuel Tf u = Some o ->
  match o with
  | Done u' => exists n, (n <= fuel)%nat /\ iterate w n u = Done u' /\ xgt (temp w (ust u')) Tf = false /\
      (forall k uk, (k < n)%nat -> iterate w k u = Done uk -> xgt (temp w (ust uk)) Tf = true)
  | Fail e u' => exists n e', (n < fuel)%nat /\ iterate w (S n) u = Fail e' u' /\
      e = (match e' with KeyboardInterrupt => Exc (Exit 1) | _ => e' end)
  end.
Proof.
  induction fuel as [|fuel IH]; intros u o H; cbn [loop] in H.
  - destruct (xgt (temp w (ust u)) Tf) eqn:E; [discriminate|]. injection H as <-.
    exists 0%nat. repeat split; auto. intros; lia.
  - destruct (xgt (temp w (ust u)) Tf) eqn:E.
    + destruct (body w u) as [u1|e1 u1] eqn:HB.
      * specialize (IH u1 o H). destruct o as [u'|e u'].
        -- destruct IH as (n & Hn & HI & HF & HA). exists (S n). split; [lia|]. split; [cbn; now rewrite HB|].
           split; [exact HF|]. intros [|k] uk Hk Hi.
           ++ injection Hi as <-. exact E.
           ++ cbn in Hi. rewrite HB in Hi. apply (HA k); auto; lia.
        -- destruct IH as (n & e' & Hn & HI & He). exists (S n), e'. split; [lia|]. split; [|exact He].
           cbn [iterate]. cbn [iterate] in HI. rewrite HB. exact HI.
      * assert (Ho : o = Fail (match e1 with KeyboardInterrupt => Exc (Exit 1) | _ => e1 end) u1) by (destruct e1; congruence).
        subst o. exists 0%nat, e1. split; [lia|]. split; [cbn; now rewrite HB|]. reflexivity.
    + injection H as <-. exists 0%nat. repeat split; auto; intros; lia.
Qed.

Lemma traj_prefix l1 : forall l2 hist s, traj hist s (l1 ++ l2) -> traj hist s l1.
Proof.
  induction l1 as [|a l1 IH]; intros l2 hist s H; [constructor|]. inversion H; subst.
  econstructor; eauto.
Qed.

Lemma iterate_prefix n k u u' : (k <= n)%nat -> iterate w n u = Done u' -> exists uk, iterate w k u = Done uk.
Proof.
  revert k u. induction n as [|n IH]; intros [|k] u Hk H; try lia; eauto; [now exists u|].
  cbn in *. destruct (body w u) as [u1|]; [|discriminate]. apply IH; auto; lia.
Qed.

(* main statement on a normal return *)
Lemma evolve_done fuel Tf ex it u u' :
  evolve w fuel Tf ex it u = Some (Done u') ->
  exists s0 l, start w it (ust u) = inl s0 /\
    traj (udata u ++ [row_of w s0]) s0 l /\
    ust u' = last l s0 /\
    udata u' = udata u ++ map (row_of w) (s0 :: l) /\
    ustep u' = (ustep u + length l)%nat /\
    Forall (fun s => xlt_spec Tf (temp w s)) (removelast (s0 :: l)) /\
    xlt_spec (Fin 0) (temp w (ust u')) /\
    (Tf = NaN \/ xle_spec (temp w (ust u')) Tf).
Proof.
  unfold evolve. destruct (start w it (ust u)) as [s0|e] eqn:HS; [|discriminate].
  destruct (loop w fuel Tf (save_params w (with_st u s0))) as [[u1|e u1]|] eqn:HL; try discriminate.
  pose proof (loop_done _ _ _ _ HL) as HD. cbn beta iota in HD. destruct HD as (n & Hn & HI & HF & HA).
  destruct (xgt (temp w (ust u1)) (Fin 0)) eqn:HP; [|discriminate]. intros E. injection E as E.
  assert (HE : ust u' = ust u1 /\ udata u' = udata u1 /\ ustep u' = ustep u1).
  { destruct ex; [|injection E as <-; auto]. unfold export in E.
    destruct (folder w); [|injection E as <-; auto].
    destruct (kawano w); [|injection E as <-; auto].
    destruct (kawano_run w _); [discriminate|injection E as <-; auto]. }
  destruct HE as (E1 & E2 & E3).
  destruct (iterate_done n _ _ HI) as (l & Hl & HT & HST & HDD & HNN & _).
  cbn in HT, HST, HDD, HNN.
  exists s0, l. split; [reflexivity|]. split; [exact HT|]. split; [congruence|].
  split; [rewrite E2, HDD; cbn; now rewrite <- app_assoc|]. split; [congruence|].
  split.
  - apply Forall_forall. intros s Hin.
    apply In_nth with (d := s0) in Hin. destruct Hin as (k & Hk & Hnth).
    assert (Hlen : length (removelast (s0 :: l)) = n).
    { rewrite <- Hl. clear. generalize s0. induction l as [|a l IH]; intros s; [reflexivity|].
      change (removelast (s :: a :: l)) with (s :: removelast (a :: l)). cbn [length]. now rewrite IH. }
    destruct (iterate_prefix n k _ _ ltac:(lia) HI) as (uk & Hk').
    destruct (iterate_done k _ _ Hk') as (lk & Hlk & HTk & HSTk & _).
    cbn in HTk, HSTk.
    assert (Hlk' : lk = firstn k l).
    { apply (traj_fun lk (firstn k l) (udata u ++ [row_of w s0]) s0); auto.
      - rewrite <- (firstn_skipn k l) in HT. eapply traj_prefix; eauto.
      - rewrite firstn_length. lia. }
    assert (Hs : ust uk = s).
    { rewrite HSTk, Hlk', <- Hnth. apply last_firstn_removelast. lia. }
    apply xgt_iff. rewrite <- Hs. apply (HA k); auto. lia.
  - split.
    + rewrite E1. now apply xgt_iff.
    + rewrite E1. destruct (xgt_false _ _ HF) as [HN|[HN|HN]]; auto.
      rewrite HN in HP. discriminate.
Qed.

(* ---------- broken temperature ---------- *)
Lemma iterate_traj_app n : forall u u', iterate w n u = Done u' -> forall l, length l = n ->
  traj (udata u) (ust u) l -> ust u' = last l (ust u).
Proof.
  intros u u' H l Hl HT. destruct (iterate_done n u u' H) as (l' & Hl' & HT' & HS & _).
  now rewrite (traj_fun l l' _ _ HT HT') by lia.
Qed.

Lemma loop_run n : forall fuel Tf u u', iterate w n u = Done u' -> (n <= fuel)%nat ->
  (forall k uk, (k < n)%nat -> iterate w k u = Done uk -> xgt (temp w (ust uk)) Tf = true) ->
  xgt (temp w (ust u')) Tf = false -> loop w fuel Tf u = Some (Done u').
Proof.
  induction n as [|n IH]; intros fuel Tf u u' HI Hf HA HF.
  - injection HI as <-. destruct fuel; cbn; now rewrite HF.
  - destruct fuel as [|fuel]; [lia|]. cbn [loop].
    rewrite (HA 0%nat u ltac:(lia) eq_refl).
    cbn [iterate] in HI. destruct (body w u) as [u1|] eqn:HB; [|discriminate].
    apply IH; auto; [lia|]. intros k uk Hk Hi. apply (HA (S k)); [lia|]. cbn. now rewrite HB.
Qed.

(* whatever is returned has positive temperature; a broken temperature reached
   while the loop is running ends the process *)
Lemma evolve_broken fuel Tf ex it u s0 n u' :
  start w it (ust u) = inl s0 ->
  iterate w n (save_params w (with_st u s0)) = Done u' -> (n <= fuel)%nat ->
  (forall k uk, (k < n)%nat -> iterate w k (save_params w (with_st u s0)) = Done uk -> xlt_spec Tf (temp w (ust uk))) ->
  ~ xlt_spec (Fin 0) (temp w (ust u')) ->
  (temp w (ust u') = NaN \/ xle_spec (Fin 0) Tf \/ Tf = NaN) ->
  evolve w fuel Tf ex it u = Some (Fail (Exc (Exit 1)) u').
Proof.
  intros HS HI Hf HA HB HT. unfold evolve. rewrite HS.
  assert (HF : xgt (temp w (ust u')) Tf = false).
  { destruct (xgt (temp w (ust u')) Tf) eqn:E; [|reflexivity]. exfalso. apply xgt_iff in E.
    destruct HT as [HT|[HT|HT]].
    - rewrite HT in E. destruct Tf; exact E.
    - apply HB. destruct HT as (_ & _ & [HT|HT]).
      + clear - HT E. destruct Tf, (temp w (ust u')); simpl in *; try tauto; lra.
      + subst Tf. exact E.
    - subst Tf. exact E. }
  rewrite (loop_run n fuel Tf _ u' HI Hf).
  - destruct (xgt (temp w (ust u')) (Fin 0)) eqn:E; [|reflexivity].
    apply xgt_iff in E. contradiction.
  - intros k uk Hk Hi. apply xgt_iff. eapply HA; eauto.
  - exact HF.
Qed.

Lemma evolve_interrupted fuel Tf ex it u s0 n u1 u' e :
  start w it (ust u) = inl s0 ->
  iterate w n (save_params w (with_st u s0)) = Done u1 -> (n < fuel)%nat ->
  (forall k uk, (k <= n)%nat -> iterate w k (save_params w (with_st u s0)) = Done uk -> xlt_spec Tf (temp w (ust uk))) ->
  body w u1 = Fail e u' ->
  evolve w fuel Tf ex it u = Some (Fail (match e with KeyboardInterrupt => Exc (Exit 1) | _ => e end) u').
Proof.
  intros HS HI Hf HA HB. unfold evolve. rewrite HS.
  replace (loop w fuel Tf (save_params w (with_st u s0)))
    with (Some (Fail (match e with KeyboardInterrupt => Exc (Exit 1) | _ => e end) u')); [reflexivity|].
  symmetry. revert HI HA Hf. generalize (save_params w (with_st u s0)) as v. revert fuel.
  induction n as [|n IH]; intros fuel v HI HA Hf; (destruct fuel as [|fuel]; [lia|]); cbn [loop].
  - injection HI as ->. assert (HX : xgt (temp w (ust u1)) Tf = true) by (apply xgt_iff, (HA 0%nat u1); auto).
    rewrite HX, HB. destruct e; reflexivity.
  - assert (HX : xgt (temp w (ust v)) Tf = true) by (apply xgt_iff, (HA 0%nat v); [lia|reflexivity]).
    rewrite HX. cbn [iterate] in HI. destruct (body w v) as [v1|] eqn:HB'; [|discriminate].
    apply IH; auto; [|lia]. intros k uk Hk Hi. apply (HA (S k)); [lia|]. cbn. now rewrite HB'.
Qed.

(* ---------- files ---------- *)
Definition stepE (c : option (list row)) (o : fileop row krow) :=
  match o with
  | TruncE => Some []
  | PutE r => match c with Some l => Some (l ++ [r]) | None => Some [r] end
  | _ => c end.
Lemma replayE_app ev ev' : @replayE row krow (ev ++ ev') = fold_left stepE ev' (replayE ev).
Proof. unfold replayE. rewrite fold_left_app. reflexivity. Qed.
Lemma stepE_puts rows : forall l, fold_left stepE (map PutE rows) (Some l) = Some (l ++ rows).
Proof.
  induction rows as [|r rows IH]; intros l; cbn; [now rewrite app_nil_r|]. rewrite IH, <- app_assoc. reflexivity.
Qed.
Lemma stepE_putS ks : forall c, fold_left stepE (map PutS ks) c = c.
Proof. induction ks as [|k ks IH]; intros c; cbn; auto. Qed.
Lemma stepE_putK ks : forall c, fold_left stepE (map PutK ks) c = c.
Proof. induction ks as [|k ks IH]; intros c; cbn; auto. Qed.

Lemma replayE_snapshot ev data : @replayE row krow (ev ++ TruncE :: map PutE data) = Some data.
Proof. rewrite replayE_app. cbn [fold_left stepE]. rewrite stepE_puts. reflexivity. Qed.

Lemma snapshot_replay ev (u' : universe) c :
  replayE ev = c ->
  replayE (ev ++ snapshot_events u') = if exports u' then Some (udata u') else c.
Proof.
  intros <-. unfold snapshot_events. destruct (exports u'); [|now rewrite app_nil_r].
  rewrite app_assoc, replayE_app, replayE_snapshot. destruct (kawano w); cbn; [apply stepE_putK|reflexivity].
Qed.

(* state of evolution.txt while a fresh universe is running *)
Definition fresh (u : universe) : Prop := udata u = [] /\ ukdata u = [] /\ ustep u = 1%nat /\ uev u = [].

Lemma running_snapshot n u s0 u' :
  fresh u -> folder w = true -> (0 < export_freq w)%nat -> (1 < export_freq w)%nat ->
  iterate w n (save_params w (with_st u s0)) = Done u' ->
  ustep u' = S n /\ length (udata u') = S n /\
  replayE (uev u') =
    (let m := (S n / export_freq w * export_freq w)%nat in
     if (m =? 0)%nat then None else Some (firstn m (udata u'))).
Proof.
  intros (F1 & F2 & F3 & F4) Hfold Hfq0 Hfq. revert u'. induction n as [|n IH]; intros u' HI.
  - injection HI as <-. cbn [with_st save_params ustep udata uev]. rewrite F1, F3, F4. cbn [app length].
    rewrite Nat.div_small by lia. cbn. auto.
  - rewrite iterate_snoc in HI.
    destruct (iterate w n (save_params w (with_st u s0))) as [u1|] eqn:H1; [|discriminate].
    destruct (IH u1 eq_refl) as (S1 & S2 & S3). clear IH.
    destruct (body_done u1 u' HI) as (s & _ & _ & HD & HN & ks & _ & HE & _ & _).
    split; [lia|]. assert (HL : length (udata u') = S (S n)) by (rewrite HD, app_length; cbn; lia).
    split; [exact HL|].
    rewrite HE. rewrite (snapshot_replay _ u' (replayE (uev u1))) by (now rewrite replayE_app, stepE_putS).
    unfold exports. rewrite Hfold, HN, S1. cbn [andb].
    set (f := export_freq w) in *. cbn zeta in S3 |- *.
    pose proof (Nat.div_mod (S (S n)) f ltac:(lia)) as DM.
    pose proof (Nat.mod_upper_bound (S (S n)) f ltac:(lia)) as MB.
    pose proof (Nat.div_mod (S n) f ltac:(lia)) as DM1.
    pose proof (Nat.mod_upper_bound (S n) f ltac:(lia)) as MB1.
    destruct (Nat.eqb_spec (S (S n) mod f) 0) as [E|E].
    + assert (EM : (S (S n) / f * f = S (S n))%nat) by lia.
      rewrite EM. change ((S (S n) =? 0)%nat) with false. cbn iota.
      f_equal. rewrite <- HL. now rewrite firstn_all.
    + assert (HNE : (S n mod f <> f - 1)%nat).
      { intros X. apply E. replace (S (S n)) with ((S n / f + 1) * f)%nat by lia. apply Nat.mod_mul. lia. }
      assert (EQ : (S n / f = S (S n) / f)%nat) by (apply (Nat.div_unique (S (S n)) f (S n / f) (S (S n mod f))); lia).
      rewrite S3, EQ. destruct (Nat.eqb_spec (S (S n) / f * f) 0); [reflexivity|].
      f_equal. rewrite HD, firstn_app.
      replace (S (S n) / f * f - length (udata u1))%nat with 0%nat by nia. cbn [firstn]. now rewrite app_nil_r.
Qed.

(* every crash point *)
Lemma prefix_cases {A} (pre l l' : list A) : is_prefix pre (l ++ l') -> is_prefix pre l \/ exists p, pre = l ++ p /\ is_prefix p l'.
Proof.
  revert pre. induction l as [|a l IH]; intros pre (r & E).
  - right. exists pre. split; [reflexivity|]. exists r. exact E.
  - destruct pre as [|b pre]; [left; exists (a :: l); reflexivity|]. cbn in E. injection E as -> E.
    destruct (IH pre) as [(x & Hx)|(p & -> & Hp)].
    + exists r. exact E.
    + left. exists x. cbn. now rewrite Hx.
    + right. exists p. split; [reflexivity|exact Hp].
Qed.
Lemma prefix_map {A B} (f : A -> B) pre l : is_prefix pre (map f l) -> exists l1, pre = map f l1 /\ is_prefix l1 l.
Proof.
  intros (r & E). revert pre E. induction l as [|a l IH]; intros [|b pre] E; cbn in E; try discriminate.
  - exists []. split; [reflexivity|]. exists []. reflexivity.
  - exists []. split; [reflexivity|]. exists (a :: l). reflexivity.
  - injection E as <- E. destruct (IH pre E) as (l1 & -> & (x & Hx)). exists (a :: l1). split; [reflexivity|].
    exists x. cbn. now rewrite Hx.
Qed.

Definition crash_ok (u : universe) : Prop :=
  forall pre, is_prefix pre (uev u) -> snapshot_ok (replayE pre) (udata u).

Lemma crash_ok_ext ev data data' : (forall pre, is_prefix pre ev -> snapshot_ok (replayE pre) data) ->
  is_prefix data data' -> forall pre, is_prefix pre ev -> @snapshot_ok row (@replayE row krow pre) data'.
Proof.
  intros H (r & ->) pre Hp. specialize (H pre Hp). destruct (replayE pre); [|exact I]. now apply is_prefix_app.
Qed.

Lemma crash_ok_put ev data ev' : (forall pre, is_prefix pre ev -> snapshot_ok (@replayE row krow pre) data) ->
  (forall p, is_prefix p ev' -> forall c, fold_left stepE p c = c) ->
  forall pre, is_prefix pre (ev ++ ev') -> snapshot_ok (replayE pre) data.
Proof.
  intros H HN pre Hp. destruct (prefix_cases _ _ _ Hp) as [H1|(p & -> & H2)]; [auto|].
  rewrite replayE_app, HN by auto. apply H. exists []. now rewrite app_nil_r.
Qed.

Lemma crash_ok_snapshot ev data : (forall pre, is_prefix pre ev -> snapshot_ok (@replayE row krow pre) data) ->
  forall pre, is_prefix pre (ev ++ TruncE :: map PutE data) -> snapshot_ok (replayE pre) data.
Proof.
  intros H pre Hp. destruct (prefix_cases _ _ _ Hp) as [H1|(p & -> & H2)]; [auto|].
  destruct p as [|o p].
  - rewrite app_nil_r. apply H. exists []. now rewrite app_nil_r.
  - destruct H2 as (r & E). cbn in E. injection E as <- E.
    destruct (prefix_map PutE p data (ex_intro _ r E)) as (l1 & -> & HP).
    rewrite replayE_app. cbn [fold_left stepE]. rewrite stepE_puts. exact HP.
Qed.

Lemma putS_neutral ks p : is_prefix p (map PutS ks) -> forall c, fold_left stepE p c = c.
Proof. intros H c. destruct (prefix_map _ _ _ H) as (l1 & -> & _). apply stepE_putS. Qed.
Lemma putK_neutral ks p : is_prefix p (TruncK :: map PutK ks) -> forall c, fold_left stepE p c = c.
Proof.
  intros (r & E) c. destruct p as [|o p]; [reflexivity|]. cbn in E. injection E as <- E. cbn.
  destruct (prefix_map PutK p ks (ex_intro _ r E)) as (l1 & -> & _). apply stepE_putK.
Qed.

Lemma crash_ok_body u u' : crash_ok u -> body w u = Done u' -> crash_ok u'.
Proof.
  intros H HB. destruct (body_done u u' HB) as (s & _ & _ & HD & _ & ks & _ & HE & _ & _).
  unfold crash_ok in *. rewrite HE.
  assert (H1 : forall pre, is_prefix pre (uev u ++ map PutS ks) -> snapshot_ok (replayE pre) (udata u')).
  { apply crash_ok_put.
    - apply (crash_ok_ext _ (udata u)); auto. rewrite HD. eexists. reflexivity.
    - apply putS_neutral. }
  unfold snapshot_events. destruct (exports u'); [|now rewrite app_nil_r].
  rewrite app_assoc. apply crash_ok_put; [now apply crash_ok_snapshot|].
  destruct (kawano w); [apply putK_neutral|]. intros p (r & E) c. destruct p; [reflexivity|discriminate].
Qed.

Lemma crash_ok_save u : crash_ok u -> crash_ok (save_params w u).
Proof. intros H pre Hp. apply (crash_ok_ext (uev u) (udata u)); auto. eexists. reflexivity. Qed.

Lemma crash_ok_iterate n : forall u u', crash_ok u -> iterate w n u = Done u' -> crash_ok u'.
Proof.
  induction n as [|n IH]; intros u u' H HI; cbn in HI; [now injection HI as <-|].
  destruct (body w u) as [u1|] eqn:HB; [|discriminate]. apply (IH u1 u'); [|exact HI]. exact (crash_ok_body u u1 H HB).
Qed.

Lemma crash_ok_export u u' : crash_ok u -> export w u = Done u' -> crash_ok u'.
Proof.
  intros H E. unfold export in E. destruct (folder w); [|now injection E as <-].
  destruct (kawano w).
  - destruct (kawano_run w _); [discriminate|]. injection E as <-. unfold crash_ok. cbn.
    apply crash_ok_snapshot. apply crash_ok_put; [|apply putK_neutral].
    apply crash_ok_put; [exact H|]. intros p (r & E) c.
    destruct p as [|o [|o2 p]]; [reflexivity|injection E as <- _; reflexivity|discriminate].
  - injection E as <-. unfold crash_ok. cbn. now apply crash_ok_snapshot.
Qed.

Lemma evolve_crash_ok fuel Tf ex it u u' : crash_ok u ->
  evolve w fuel Tf ex it u = Some (Done u') -> crash_ok u'.
Proof.
  intros H. unfold evolve. destruct (start w it (ust u)) as [s0|]; [|discriminate].
  destruct (loop w fuel Tf (save_params w (with_st u s0))) as [[u1|]|] eqn:HL; try discriminate.
  pose proof (loop_done _ _ _ _ HL) as HD. cbn beta iota in HD. destruct HD as (n & _ & HI & _).
  assert (H1 : crash_ok u1) by (eapply crash_ok_iterate; [apply crash_ok_save|exact HI]; exact H).
  destruct (xgt (temp w (ust u1)) (Fin 0)); [|discriminate]. intros E; injection E as E.
  destruct ex; [eapply crash_ok_export; eauto|now injection E as <-].
Qed.

Lemma evolve_final_export fuel Tf it u u' : folder w = true ->
  evolve w fuel Tf true it u = Some (Done u') -> replayE (uev u') = Some (udata u').
Proof.
  intros HF. unfold evolve. destruct (start w it (ust u)) as [s0|]; [|discriminate].
  destruct (loop w fuel Tf (save_params w (with_st u s0))) as [[u1|]|] eqn:HL; try discriminate.
  destruct (xgt (temp w (ust u1)) (Fin 0)); [|discriminate]. intros E; injection E as E.
  unfold export in E. rewrite HF in E. destruct (kawano w).
  - destruct (kawano_run w _); [discriminate|]. injection E as <-. cbn. apply replayE_snapshot.
  - injection E as <-. cbn. apply replayE_snapshot.
Qed.

(* every snapshot passes through an empty file *)
Lemma snapshot_window u u' : body w u = Done u' -> folder w = true ->
  Nat.modulo (ustep u') (export_freq w) = 0%nat ->
  exists pre, is_prefix (uev u) pre /\ is_prefix pre (uev u') /\ replayE pre = Some [].
Proof.
  intros HB HF HM. destruct (body_done u u' HB) as (s & _ & _ & HD & _ & ks & _ & HE & _ & _).
  exists ((uev u ++ map PutS ks) ++ [TruncE]). repeat split.
  - exists (map PutS ks ++ [TruncE]). now rewrite app_assoc.
  - rewrite HE. unfold snapshot_events, exports. rewrite HF, HM. cbn [andb Nat.eqb].
    exists (map PutE (udata u') ++ (if kawano w then TruncK :: map PutK (ukdata u') else [])).
    rewrite <- !app_assoc. reflexivity.
  - rewrite replayE_app. reflexivity.
Qed.

(* ---------- KAWANO table ---------- *)
Definition stepS (c : list krow) (o : fileop row krow) := match o with PutS r => c ++ [r] | _ => c end.
Lemma replayS_app ev ev' : @replayS row krow (ev ++ ev') = fold_left stepS ev' (replayS ev).
Proof. unfold replayS. rewrite fold_left_app. reflexivity. Qed.
Lemma stepS_putS ks : forall c, fold_left stepS (map PutS ks) c = c ++ ks.
Proof. induction ks as [|k ks IH]; intros c; cbn; [now rewrite app_nil_r|]. rewrite IH, <- app_assoc. reflexivity. Qed.
Lemma stepS_putE l : forall c, fold_left stepS (map PutE l) c = c.
Proof. induction l as [|k ks IH]; intros c; cbn; auto. Qed.
Lemma stepS_putK l : forall c, fold_left stepS (map PutK l) c = c.
Proof. induction l as [|k ks IH]; intros c; cbn; auto. Qed.
Lemma snapshot_S ev u' : replayS (ev ++ snapshot_events u') = replayS ev.
Proof.
  rewrite replayS_app. unfold snapshot_events. destruct (exports u'); [|reflexivity].
  rewrite fold_left_app. cbn [fold_left stepS]. rewrite stepS_putE. destruct (kawano w); [|reflexivity]. cbn. apply stepS_putK.
Qed.
Lemma iterate_s4 n : forall u u', replayS (uev u) = ukdata u -> iterate w n u = Done u' -> replayS (uev u') = ukdata u'.
Proof.
  induction n as [|n IH]; intros u u' H HI; cbn in HI; [now injection HI as <-|].
  destruct (body w u) as [u1|] eqn:HB; [|discriminate].
  apply (IH u1); auto. destruct (body_done u u1 HB) as (s & _ & _ & _ & _ & ks & HK & HE & _ & _).
  rewrite HE, snapshot_S, replayS_app, stepS_putS, HK, H. reflexivity.
Qed.

Lemma evolve_kawano fuel Tf ex it u u' :
  evolve w fuel Tf ex it u = Some (Done u') -> kawano w = true ->
  exists s0 l ks, start w it (ust u) = inl s0 /\ traj (udata u ++ [row_of w s0]) s0 l /\
    udata u' = udata u ++ map (row_of w) (s0 :: l) /\
    ukdata u' = ukdata u ++ ks /\
    Forall2 (fun s k => rates w s = inl k) (filter (fun s => xle (temp w s) (T_kawano w)) l) ks.
Proof.
  intros E HK. unfold evolve in E. destruct (start w it (ust u)) as [s0|] eqn:HS; [|discriminate].
  destruct (loop w fuel Tf (save_params w (with_st u s0))) as [[u1|]|] eqn:HL; try discriminate.
  pose proof (loop_done _ _ _ _ HL) as HD. cbn beta iota in HD. destruct HD as (n & _ & HI & _).
  destruct (xgt (temp w (ust u1)) (Fin 0)); [|discriminate]. injection E as E.
  assert (HE : udata u' = udata u1 /\ ukdata u' = ukdata u1).
  { destruct ex; [|injection E as <-; auto]. unfold export in E.
    destruct (folder w); [|injection E as <-; auto]. rewrite HK in E.
    destruct (kawano_run w _); [discriminate|injection E as <-; auto]. }
  destruct HE as (E1 & E2).
  destruct (iterate_done n _ _ HI) as (l & _ & HT & _ & HDD & _ & ks & HKD & HR).
  rewrite HK in HR. cbn in HT, HDD, HKD.
  exists s0, l, ks. split; [reflexivity|]. split; [exact HT|].
  split; [rewrite E1, HDD; cbn; now rewrite <- app_assoc|]. split; [congruence|]. exact HR.
Qed.

(* no folder: the first cold step raises *)
Lemma kawano_without_folder u s k : folder w = false -> kawano w = true ->
  make_step w (ust u) (udata u) = inl s -> cold s = true -> rates w s = inl k ->
  exists u', body w u = Fail (Exc AttributeError) u'.
Proof.
  intros HF HK HM HC HR. unfold body. rewrite HM. unfold save, cold in *. cbn. rewrite HK, HC, HR, HF. cbn. eauto.
Qed.

(* ---------- export after a KAWANO failure ---------- *)
Lemma export_failure fuel Tf it u s0 u1 e :
  start w it (ust u) = inl s0 ->
  loop w fuel Tf (save_params w (with_st u s0)) = Some (Done u1) ->
  xlt_spec (Fin 0) (temp w (ust u1)) -> folder w = true -> kawano w = true ->
  kawano_run w (ust u1) = Some e ->
  evolve w fuel Tf true it u = Some (Fail e (emit u1 [CloseS])).
Proof.
  intros HS HL HP HF HK HR. unfold evolve. rewrite HS, HL.
  apply xgt_iff in HP. rewrite HP. unfold export. rewrite HF, HK. cbn [emit ust]. now rewrite HR.
Qed.

(* ---------- a run after an export ---------- *)
Lemma closedS_app ev ev' : @closedS row krow (ev ++ ev') = (closedS ev || closedS ev')%bool.
Proof. apply existsb_app. Qed.
Lemma iterate_closed n : forall u u', closedS (uev u) = true -> iterate w n u = Done u' -> ukdata u' = ukdata u.
Proof.
  induction n as [|n IH]; intros u u' HC H; [now injection H as <-|].
  cbn in H. destruct (body w u) as [u1|] eqn:HB; [|discriminate].
  destruct (body_done u u1 HB) as (s & _ & _ & _ & _ & ks & HK & HE & _ & HN).
  assert (ks = []) by (destruct ks; [reflexivity|]; destruct HN; [discriminate|congruence]). subst ks.
  rewrite app_nil_r in HK. rewrite <- HK. apply IH; [|exact H].
  rewrite HE, !closedS_app, HC. reflexivity.
Qed.
Lemma export_closes fuel Tf it u u' : folder w = true -> kawano w = true ->
  evolve w fuel Tf true it u = Some (Done u') -> closedS (uev u') = true.
Proof.
  intros HF HK. unfold evolve. destruct (start w it (ust u)) as [s0|]; [|discriminate].
  destruct (loop w fuel Tf (save_params w (with_st u s0))) as [[u1|]|]; try discriminate.
  destruct (xgt (temp w (ust u1)) (Fin 0)); [|discriminate]. intros E; injection E as E.
  unfold export in E. rewrite HF, HK in E. destruct (kawano_run w _); [discriminate|]. injection E as <-.
  cbn [write_evolution write_kawano emit uev]. rewrite !closedS_app. cbn. now rewrite Bool.orb_true_r.
Qed.
Lemma evolve_closed fuel Tf ex it u u' : closedS (uev u) = true -> kawano w = true ->
  evolve w fuel Tf ex it u = Some (Done u') ->
  exists s0 l, start w it (ust u) = inl s0 /\ udata u' = udata u ++ map (row_of w) (s0 :: l) /\
    ukdata u' = ukdata u /\ Forall (fun s => ~ xle_spec (temp w s) (T_kawano w)) l.
Proof.
  intros HC HK HE. destruct (evolve_kawano _ _ _ _ _ _ HE HK) as (s0 & l & ks & HS & _ & HD & HKD & HF).
  exists s0, l. split; [exact HS|]. split; [exact HD|].
  assert (EK : ukdata u' = ukdata u).
  { unfold evolve in HE. rewrite HS in HE.
    destruct (loop w fuel Tf (save_params w (with_st u s0))) as [[u1|]|] eqn:HL; try discriminate.
    pose proof (loop_done _ _ _ _ HL) as HX. cbn beta iota in HX. destruct HX as (n & _ & HI & _).
    destruct (xgt (temp w (ust u1)) (Fin 0)); [|discriminate]. injection HE as E.
    transitivity (ukdata u1).
    - destruct ex; [|injection E as <-; auto]. unfold export in E.
      destruct (folder w); [|injection E as <-; auto]. rewrite HK in E.
      destruct (kawano_run w _); [discriminate|injection E as <-; auto].
    - apply (iterate_closed n (save_params w (with_st u s0))); assumption. }
  split; [exact EK|].
  rewrite EK in HKD. assert (ks = []) by (apply (app_inv_head (ukdata u)); now rewrite app_nil_r). subst ks.
  inversion HF as [HN|]. clear -HN. induction l as [|s l IH]; [constructor|]. cbn in HN.
  destruct (xle (temp w s) (T_kawano w)) eqn:E; [discriminate|].
  constructor; [rewrite <- xle_iff; congruence|now apply IH].
Qed.
End Spec.

(* ---------- derivative for KAWANO ---------- *)
(* along a trajectory aT(t), a(t) with a' = H a and x = a*m:
   logarithmic mode: d(aT)/d(ln x) = fraction; linear mode: d(aT)/dx = fraction *)
Lemma dTdt_chain (logmode : bool) (aT a : R -> R) (t H m fraction : R) :
  m <> 0 -> a t <> 0 ->
  derivable_pt_lim a t (H * a t) ->
  derivable_pt_lim aT t (fraction * (if logmode then H else m * (H * a t))) ->
  derivable_pt_lim (fun s => aT s / a s) t (dTdt logmode fraction (aT t) (aT t / a t) (a t) H m).
Proof.
  intros Hm Ha Da DaT.
  pose proof (derivable_pt_lim_div aT a t _ _ DaT Da Ha) as HD.
  replace (dTdt logmode fraction (aT t) (aT t / a t) (a t) H m) with
    ((fraction * (if logmode then H else m * (H * a t)) * a t - H * a t * aT t) / Rsqr (a t)).
  - exact HD.
  - unfold dTdt, Rsqr. destruct logmode; field; auto.
Qed.
