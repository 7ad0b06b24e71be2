(* Proofs about the model of plotting.py. *)
From Coq Require Import Reals List ZArith Arith Lia Lra Sorted.
From Verif Require Import Base PlotModel.
Import ListNotations.
Open Scope R_scope.
Local Notation length := List.length.

(* ------------------------------------------------------------------ *)
(* Ageing: ages instead of opacities *)
Definition alpha_of (n : nat) : option R := match n with O => None | _ => Some ((8/10)^n) end.
Definition curve_of (p : nat * nat) : curve := mkcurve (fst p) (alpha_of (snd p)).

Lemma opacity_of : forall p, opacity (curve_of p) = (8/10)^(snd p).
Proof.
  intros [k n]. unfold opacity, curve_of, alpha_of. cbn. destruct n as [|n]; [reflexivity|].
  destruct (Req_EM_T ((8/10)^S n) 0) as [E|E]; [|reflexivity].
  exfalso. revert E. apply pow_nonzero. lra.
Qed.

Lemma fade_threshold : forall n, (8/10)^n < 1/10 <-> (11 <= n)%nat.
Proof.
  intro n. split.
  - intro H. destruct (le_lt_dec 11 n) as [L|L]; [exact L|]. exfalso.
    do 11 (destruct n as [|n]; [cbn in H; lra|]). lia.
  - intro H. replace n with (11 + (n - 11))%nat by lia. rewrite pow_add.
    assert (B : (8/10)^(n - 11) <= 1).
    { generalize (n - 11)%nat. intro m. induction m as [|m IH]; [cbn; lra|].
      cbn [pow]. assert (0 < (8/10)^m) by (apply pow_lt; lra). lra. }
    assert (P : 0 < (8/10)^(n - 11)) by (apply pow_lt; lra).
    assert (A : (8/10)^11 < 1/10) by (cbn; lra).
    apply Rle_lt_trans with ((8/10)^11); [|exact A].
    assert (0 < (8/10)^11) by (apply pow_lt; lra). nra.
Qed.

Fixpoint nage (ls : list (nat * nat)) : list (nat * nat) :=
  match ls with
  | [] => []
  | (k, n) :: r =>
      if Nat.leb 11 n
      then match r with [] => [] | d :: r' => d :: nage r' end
      else (k, S n) :: nage r
  end.

Lemma age_sim : forall m ls, (length ls <= m)%nat ->
  age_lines (map curve_of ls) = map curve_of (nage ls).
Proof.
  induction m as [|m IH]; intros ls L.
  - destruct ls; [reflexivity|cbn in L; lia].
  - destruct ls as [|[k n] r]; [reflexivity|].
    cbn [map age_lines nage]. rewrite opacity_of. cbn [snd].
    destruct (Rlt_dec ((8/10)^n) (1/10)) as [F|F].
    + apply fade_threshold in F. rewrite (proj2 (Nat.leb_le 11 n) F).
      destruct r as [|d r']; [reflexivity|].
      cbn [map]. f_equal. apply IH. cbn in L. lia.
    + destruct (Nat.leb 11 n) eqn:E.
      * exfalso. apply F. apply fade_threshold, Nat.leb_le, E.
      * cbn [map]. f_equal.
        -- unfold curve_of, alpha_of. cbn [fst snd cframe]. f_equal. f_equal.
           cbn [pow]. ring.
        -- apply IH. cbn in L. lia.
Qed.

Fixpoint nframes (n : nat) : list (nat * nat) :=
  match n with O => [] | S m => nage (nframes m) ++ [(m, 0%nat)] end.

Lemma frames_sim : forall n, frames n = map curve_of (nframes n).
Proof.
  induction n as [|n IH]; [reflexivity|].
  cbn [frames nframes]. unfold frame. rewrite IH, (age_sim _ _ (le_n _)), map_app. reflexivity.
Qed.

(* The steady state after frame 14 + m *)
Definition steady (m : nat) : list (nat * nat) :=
  [(m+1, 11); (m+2, 11); (m+3, 10); (m+4, 9); (m+5, 8); (m+6, 7); (m+7, 6); (m+8, 5);
   (m+9, 4); (m+10, 3); (m+11, 2); (m+12, 1); (m+13, 0)]%nat.

Lemma nframes_steady : forall m, nframes (14 + m) = steady m.
Proof.
  induction m as [|m IH]; [reflexivity|].
  replace (14 + S m)%nat with (S (14 + m)) by lia.
  cbn [nframes]. rewrite IH. unfold steady at 1. cbn [nage Nat.leb app]. unfold steady.
  repeat (f_equal; try lia).
Qed.

Lemma frames_steady : forall m,
  frames (14 + m) = map curve_of (steady m).
Proof. intro m. rewrite frames_sim, nframes_steady. reflexivity. Qed.

Lemma frames_view : forall n,
  map cframe (frames n) =
  if (n <=? 12)%nat then seq 0 n else if (n =? 13)%nat then seq 1 12 else seq (n - 13) 13.
Proof.
  intro n. rewrite frames_sim, map_map.
  destruct (le_lt_dec 14 n) as [L|L].
  - replace n with (14 + (n - 14))%nat at 1 by lia.
    rewrite nframes_steady. rewrite (proj2 (Nat.leb_gt n 12)) by lia.
    rewrite (proj2 (Nat.eqb_neq n 13)) by lia.
    unfold steady. cbn [map seq fst curve_of cframe].
    repeat (f_equal; try lia).
  - do 14 (destruct n as [|n]; [reflexivity|]). lia.
Qed.

Lemma frames_opacity : forall n c, In c (frames n) ->
  (8/10)^11 <= opacity c <= 1 /\
  exists a, opacity c = (8/10)^a /\ (a <= n - 1 - cframe c <= a + 1)%nat.
Proof.
  intros n c H. rewrite frames_sim in H. apply in_map_iff in H. destruct H as [[k a] [<- H]].
  assert (B : (a <= 11)%nat /\ (a <= n - 1 - k <= a + 1)%nat).
  { destruct (le_lt_dec 14 n) as [L|L].
    - replace n with (14 + (n - 14))%nat in H |- * by lia.
      rewrite nframes_steady in H. unfold steady in H. cbn [In] in H.
      repeat (destruct H as [H|H]; [injection H as <- <-; lia|]). destruct H.
    - do 14 (destruct n as [|n]; [vm_compute in H;
        repeat (destruct H as [H|H]; [injection H as <- <-; lia|]); destruct H|]). lia. }
  rewrite opacity_of. cbn [snd cframe curve_of fst]. destruct B as [B1 B2]. split.
  - assert (Q : forall m, 0 < (8/10)^m <= 1).
    { induction m as [|m IH]; cbn [pow]; lra. }
    split; [|apply Q].
    replace 11%nat with (a + (11 - a))%nat by lia. rewrite pow_add.
    destruct (Q a), (Q (11 - a)%nat). nra.
  - exists a. split; [reflexivity|exact B2].
Qed.

(* ------------------------------------------------------------------ *)
(* Limits *)
Definition run1 (n : nat) (s : rdeque * axis) (pt : R * R) : rdeque * axis :=
  if Req_EM_T (fst pt) 0 then s else
  let ts := rd_append n (fst s) (fst pt) in
  (ts, plot_axis n (hd 0 (rd_items ts)) (fst pt) (snd pt) (snd s)).

Definition column (i : nat) (rows : list (R * list R)) : list (R * R) :=
  map (fun r => (fst r, nth i (snd r) 0)) rows.

Lemma nth_error_combine : forall {A B} (l : list A) (m : list B) i a b,
  nth_error l i = Some a -> nth_error m i = Some b -> nth_error (combine l m) i = Some (a, b).
Proof.
  induction l as [|x l IH]; intros [|y m] [|i] a b H1 H2; cbn in *; try discriminate.
  - now injection H1 as <-; injection H2 as <-.
  - now apply IH.
Qed.

Lemma plot_rows_column : forall n rows g i p,
  Forall (fun r => length (snd r) = length (axes g)) rows ->
  nth_error (axes g) i = Some p ->
  times (plot_rows n g rows) = fst (fold_left (run1 n) (column i rows) (times g, p)) /\
  nth_error (axes (plot_rows n g rows)) i
    = Some (snd (fold_left (run1 n) (column i rows) (times g, p))).
Proof.
  induction rows as [|[t vs] rows IH]; intros g i p F H; [split; [reflexivity|exact H]|].
  inversion F as [|? ? L F']; subst. cbn [snd] in L.
  cbn [plot_rows column map fold_left].
  fold (plot_rows n (plot_row n g (t, vs)) rows). fold (column i rows).
  unfold plot_row, run1 at 2 4. cbn [fst snd].
  destruct (Req_EM_T t 0) as [Z|Z]; [now apply IH|].
  set (g' := mkplot _ _).
  assert (L' : length (axes g') = length (axes g)).
  { unfold g'. cbn [axes]. rewrite map_length, combine_length. lia. }
  apply (IH g' i).
  - rewrite L'. exact F'.
  - unfold g'. cbn [axes].
    assert (E : nth_error vs i = Some (nth i vs 0)).
    { apply nth_error_nth'. rewrite L. apply nth_error_Some. now rewrite H. }
    erewrite map_nth_error; [|apply nth_error_combine; [exact H|exact E]]. reflexivity.
Qed.

Definition latest {A} (k : nat) (l : list A) : list A := skipn (length l - k) l.

Lemma latest_snoc : forall {A} n (l : list A) x,
  latest (S n) (l ++ [x]) =
  (if Nat.ltb n (length (latest (S n) l)) then tl (latest (S n) l) else latest (S n) l) ++ [x].
Proof.
  intros A n l x. unfold latest. rewrite app_length. cbn [length]. rewrite skipn_length.
  destruct (Nat.ltb n (length l - (length l - S n))) eqn:E.
  - apply Nat.ltb_lt in E.
    replace (length l + 1 - S n)%nat with (S (length l - S n)) by lia.
    rewrite skipn_app. replace (S (length l - S n) - length l)%nat with 0%nat by lia.
    cbn [skipn]. f_equal.
    generalize (length l - S n)%nat. clear. intro m. revert m.
    induction l as [|a l IH]; intro m; [now destruct m|].
    destruct m as [|m]; [reflexivity|]. cbn [skipn]. apply IH.
  - apply Nat.ltb_ge in E.
    replace (length l + 1 - S n)%nat with 0%nat by lia.
    replace (length l - S n)%nat with 0%nat by lia. reflexivity.
Qed.

Lemma latest_in : forall {A} k (l : list A) x, In x (latest k l) -> In x l.
Proof.
  intros A k l x H. unfold latest in H. rewrite <- (firstn_skipn (length l - k) l).
  apply in_or_app. now right.
Qed.

(* The ring after a history *)
Definition ring_inv (n : nat) (done : list R) (q : rdeque) : Prop :=
  rd_items q = latest (S n) done /\
  (rd_used q = false -> done = []) /\
  (rd_used q = true -> In (rd_max q) done /\ In (rd_min q) done /\
                       forall v, In v done -> rd_min q <= v <= rd_max q).

Lemma ring_step : forall n done q x, ring_inv n done q ->
  ring_inv n (done ++ [x]) (rd_append n q x) /\
  rd_used (rd_append n q x) = true.
Proof.
  intros n done q x [I [U V]]. unfold rd_append. destruct (rd_used q) eqn:E.
  - destruct (V eq_refl) as [M [m B]]. split; [|reflexivity]. split; [|split]; cbn.
    + rewrite latest_snoc, I. reflexivity.
    + discriminate.
    + intros _. split; [|split].
      * apply in_or_app. unfold Rmax. destruct (Rle_dec x (rd_max q)); [now left|right; now left].
      * apply in_or_app. unfold Rmin. destruct (Rle_dec x (rd_min q)); [right; now left|now left].
      * intros v Hv. apply in_app_or in Hv. destruct Hv as [Hv|[<-|[]]].
        -- specialize (B v Hv). split.
           ++ apply Rle_trans with (rd_min q); [apply Rmin_r|lra].
           ++ apply Rle_trans with (rd_max q); [lra|apply Rmax_r].
        -- split; [apply Rmin_l|apply Rmax_l].
  - specialize (U eq_refl). subst done. split; [|reflexivity]. split; [|split]; cbn.
    + rewrite I. unfold latest. cbn. destruct n; reflexivity.
    + discriminate.
    + intros _. split; [now left|split; [now left|]]. intros v [<-|[]]. lra.
Qed.

Lemma sorted_snoc_le : forall (l : list R) x,
  StronglySorted Rle (l ++ [x]) -> StronglySorted Rle l /\ forall y, In y l -> y <= x.
Proof.
  induction l as [|a l IH]; intros x H.
  - split; [constructor|intros y []].
  - cbn in H. inversion H as [|? ? S F]; subst. destruct (IH x S) as [S' B]. split.
    + constructor; [exact S'|]. rewrite Forall_forall in F |- *. intros y Hy. apply F.
      apply in_or_app. now left.
    + intros y [<-|Hy]; [|now apply B]. rewrite Forall_forall in F. apply F.
      apply in_or_app. right. now left.
Qed.

Lemma sorted_skipn : forall k (l : list R), StronglySorted Rle l -> StronglySorted Rle (skipn k l).
Proof.
  induction k as [|k IH]; intros l H; [exact H|]. destruct l as [|a l]; [exact H|].
  cbn. apply IH. now inversion H.
Qed.

Lemma sorted_hd : forall (l : list R) y, StronglySorted Rle l -> In y l -> hd 0 l <= y.
Proof.
  intros [|a l] y H Hy; [destruct Hy|]. destruct Hy as [<-|Hy]; cbn; [lra|]. inversion H as [|? ? _ F]; subst.
  rewrite Forall_forall in F. now apply F.
Qed.

(* What is true of one plot after the points [done] (times and values) *)
Definition y_inv (y0 : R * R) (vs : list R) (y : R * R) : Prop :=
  fst y < snd y /\
  (forall v, In v vs -> fst y <= v <= snd y) /\
  (snd y = snd y0 \/ exists v, In v vs /\ snd y <= 11/10 * v) /\
  (fst y = fst y0 \/ exists v, In v vs /\ v <= 11/10 * fst y).
Definition x_inv (x0 : R * R) (ts items : list R) (x : R * R) : Prop :=
  (x = x0 /\ forall t, In t ts -> t < snd x0) \/
  ((forall t, In t items -> fst x <= t <= snd x) /\
   In (fst x) ts /\ exists t, In t ts /\ snd x = 11/10 * t).
Definition plot_inv (n : nat) (x0 y0 : R * R) (done : list (R * R)) (s : rdeque * axis) : Prop :=
  ring_inv n (map fst done) (fst s) /\
  ring_inv n (map snd done) (pdata (snd s)) /\
  y_inv y0 (map snd done) (ylim (snd s)) /\
  x_inv x0 (map fst done) (rd_items (fst s)) (xlim (snd s)).

Lemma in_snoc : forall {A} (l : list A) x y, In y (l ++ [x]) <-> In y l \/ y = x.
Proof.
  intros A l x y. rewrite in_app_iff. cbn. intuition auto.
Qed.

Lemma y_step : forall n y0 vs y q v,
  ring_inv n vs q -> y_inv y0 vs y ->
  (forall w, In w vs -> w > 0) -> v > 0 ->
  y_inv y0 (vs ++ [v])
    (let q' := rd_append n q v in
     let yl1 := if Rle_dec (snd y) v then (rd_min q', 11/10 * v) else y in
     if Rle_dec v (fst y) then (v / (11/10), rd_max q') else yl1).
Proof.
  intros n y0 vs y q v RV [YL [YB [YU YD]]] P Hv.
  destruct (ring_step n _ _ v RV) as [[QI [QN QX]] UV]. cbn zeta.
  set (q' := rd_append n q v) in *. destruct (QX UV) as [QM [Qm QB]].
  assert (P' : forall w, In w (vs ++ [v]) -> w > 0).
  { intros w Hw. apply in_snoc in Hw. destruct Hw as [Hw| ->]; auto. }
  assert (LV : In v (vs ++ [v])) by (apply in_snoc; now right).
  assert (Qv := QB v LV). assert (Pm := P' _ Qm). assert (PM := P' _ QM).
  unfold y_inv.
  destruct (Rle_dec v (fst y)) as [LO|LO]; [|destruct (Rle_dec (snd y) v) as [UP|UP]];
    cbn [fst snd].
  - split; [lra|]. split; [|split].
    + intros w Hw. split; [|apply QB, Hw]. apply in_snoc in Hw.
      destruct Hw as [Hw| ->]; [specialize (YB w Hw)|]; lra.
    + right. exists (rd_max q'). split; [exact QM|]. lra.
    + right. exists v. split; [exact LV|]. lra.
  - split; [lra|]. split; [|split].
    + intros w Hw. split; [apply QB, Hw|]. apply in_snoc in Hw.
      destruct Hw as [Hw| ->]; [specialize (YB w Hw)|]; lra.
    + right. exists v. split; [exact LV|]. lra.
    + right. exists (rd_min q'). split; [exact Qm|]. lra.
  - split; [exact YL|]. split; [|split].
    + intros w Hw. apply in_snoc in Hw. destruct Hw as [Hw| ->]; [apply YB, Hw|lra].
    + destruct YU as [E|[w [Hw E]]]; [now left|right]. exists w. split; [|exact E].
      apply in_snoc. now left.
    + destruct YD as [E|[w [Hw E]]]; [now left|right]. exists w. split; [|exact E].
      apply in_snoc. now left.
Qed.

Lemma x_step : forall n x0 ts x q t,
  ring_inv n ts q -> x_inv x0 ts (rd_items q) x -> t > 0 ->
  StronglySorted Rle (ts ++ [t]) ->
  let q' := rd_append n q t in
  x_inv x0 (ts ++ [t]) (rd_items q')
    (if Rle_dec (snd x) t then (hd 0 (rd_items q'), t * (11/10)) else x).
Proof.
  intros n x0 ts x q t RT X Ht HS. cbn zeta.
  destruct (sorted_snoc_le _ _ HS) as [HS' HL].
  destruct (ring_step n _ _ t RT) as [[TI _] _]. destruct RT as [TI0 _].
  rewrite TI.
  assert (LT : In t (ts ++ [t])) by (apply in_snoc; now right).
  destruct (Rle_dec (snd x) t) as [XR|XR].
  - right. cbn [fst snd].
    assert (SS : StronglySorted Rle (latest (S n) (ts ++ [t]))) by (apply sorted_skipn, HS).
    assert (NE : latest (S n) (ts ++ [t]) <> [])
      by (rewrite latest_snoc; intro E; apply app_eq_nil in E; destruct E; discriminate).
    split; [|split].
    + intros u Hu. split; [now apply sorted_hd|].
      apply latest_in, in_snoc in Hu. destruct Hu as [Hu| ->]; [specialize (HL u Hu)|]; lra.
    + apply (latest_in (S n)). destruct (latest (S n) (ts ++ [t])); [easy|now left].
    + exists t. split; [exact LT|lra].
  - destruct X as [[X1 X2]|[X1 [X2 [u [X3 X4]]]]].
    + left. split; [exact X1|]. intros w Hw. apply in_snoc in Hw.
      destruct Hw as [Hw| ->]; [now apply X2|]. rewrite <- X1. lra.
    + right. split; [|split].
      * intros w Hw. rewrite latest_snoc in Hw. apply in_snoc in Hw. destruct Hw as [Hw| ->].
        -- apply X1. rewrite TI0. destruct (Nat.ltb _ _); [|exact Hw].
           destruct (latest (S n) ts); [destruct Hw|now right].
        -- split; [now apply HL|lra].
      * apply in_snoc. now left.
      * exists u. split; [apply in_snoc; now left|exact X4].
Qed.

Lemma plot_inv_step : forall n x0 y0 done s pt,
  plot_inv n x0 y0 done s ->
  fst pt > 0 -> snd pt > 0 -> (forall w, In w (map snd done) -> w > 0) ->
  StronglySorted Rle (map fst (done ++ [pt])) ->
  plot_inv n x0 y0 (done ++ [pt]) (run1 n s pt).
Proof.
  intros n x0 y0 done [ts p] [t v] [RT [RV [Y X]]] Ht Hv P HS. cbn [fst snd] in *.
  unfold run1. cbn [fst snd]. destruct (Req_EM_T t 0) as [Z|_]; [lra|].
  rewrite map_app in HS. cbn [map fst] in HS.
  unfold plot_inv. rewrite !map_app. cbn [map fst snd plot_axis pdata xlim ylim].
  split; [apply ring_step, RT|]. split; [apply ring_step, RV|]. split.
  - now apply (y_step n).
  - now apply (x_step n).
Qed.

Definition counted (pts : list (R * R)) : list (R * R) :=
  filter (fun pt => if Req_EM_T (fst pt) 0 then false else true) pts.

Lemma run1_inv : forall n x0 y0 pts done s,
  plot_inv n x0 y0 done s ->
  (forall pt, In pt pts -> fst pt >= 0 /\ snd pt > 0) -> (forall w, In w (map snd done) -> w > 0) ->
  StronglySorted Rle (map fst (done ++ counted pts)) ->
  plot_inv n x0 y0 (done ++ counted pts) (fold_left (run1 n) pts s).
Proof.
  induction pts as [|[t v] pts IH]; intros done s I P PD HS.
  - cbn. rewrite app_nil_r. exact I.
  - cbn [fold_left]. destruct (P (t, v) (or_introl eq_refl)) as [Ht Hv]. cbn [fst snd] in *.
    unfold counted in *. cbn [filter fst] in *.
    destruct (Req_EM_T t 0) as [Z|Z].
    + apply IH; auto.
      * unfold run1. cbn [fst]. destruct (Req_EM_T t 0); [exact I|easy].
      * intros pt Hpt. apply P. now right.
    + change ((t, v) :: filter (fun pt => if Req_EM_T (fst pt) 0 then false else true) pts)
        with ([(t, v)] ++ filter (fun pt => if Req_EM_T (fst pt) 0 then false else true) pts) in HS |- *.
      rewrite app_assoc in HS |- *.
      apply IH; auto.
      * apply plot_inv_step; cbn [fst snd]; auto; [lra|].
        rewrite map_app in HS.
        revert HS. generalize (map fst (filter (fun pt : R * R => if Req_EM_T (fst pt) 0 then false else true) pts)).
        intros l HS. clear - HS. revert HS. generalize (map fst (done ++ [(t, v)])).
        induction l0 as [|a l0 IH]; intro HS; [constructor|]. cbn in HS.
        inversion HS as [|? ? S F]; subst. constructor; [now apply IH|].
        rewrite Forall_forall in F |- *. intros y Hy. apply F, in_or_app. now left.
      * intros pt Hpt. apply P. now right.
      * intros w Hw. rewrite map_app in Hw. apply in_snoc in Hw.
        destruct Hw as [Hw| ->]; [now apply PD|exact Hv].
Qed.

Lemma plot_inv_new : forall n x0 y0, fst y0 < snd y0 ->
  plot_inv n x0 y0 [] (rd_new, mkaxis x0 y0 rd_new).
Proof.
  intros n x0 y0 H. unfold plot_inv, ring_inv, y_inv, x_inv. cbn.
  repeat split; auto; try discriminate; try tauto.
Qed.

(* ------------------------------------------------------------------ *)
(* The figure of monitored particles *)
Lemma monitor_from_rows : forall {P} (ps : list P) i n, (i + length ps = n)%nat ->
  monitor_from (Axes2 (map (fun j => [(j, 0); (j, 1)]%nat) (seq 0 n))) i ps
  = Ok (combine ps (map (fun j => [(j, 0); (j, 1)]%nat) (seq i (length ps)))).
Proof.
  induction ps as [|p ps IH]; intros i n L; [reflexivity|]. cbn [length] in L.
  cbn [monitor_from cell_at].
  assert (E : nth_error (map (fun j => [(j, 0); (j, 1)]%nat) (seq 0 n)) i
              = Some [(i, 0); (i, 1)]%nat).
  { erewrite map_nth_error; [reflexivity|].
    rewrite (nth_error_nth' _ 0%nat) by (rewrite seq_length; lia).
    rewrite seq_nth by lia. reflexivity. }
  rewrite E. cbn [rbind new_monitor]. rewrite (IH (S i) n) by lia. reflexivity.
Qed.

(* ------------------------------------------------------------------ *)
(* The live monitor *)
Lemma in_backlog : forall last len r, In r (plot_backlog last len) <-> (last <= r /\ r + 1 < len)%nat.
Proof.
  intros last len r. unfold plot_backlog. rewrite in_map_iff. split.
  - intros [i [<- H]]. apply in_seq in H. lia.
  - intro H. exists (S r). rewrite in_seq. lia.
Qed.

Lemma backlog_nodup : forall last len, NoDup (plot_backlog last len).
Proof.
  intros last len. unfold plot_backlog. generalize (len - S last)%nat. intro k.
  rewrite <- seq_shift, map_map. rewrite (map_ext _ (fun x => x)) by (intro; lia).
  rewrite map_id. apply seq_NoDup.
Qed.

(* Lengths read by the polls that found a newer file *)
Fixpoint newer (m : Z) (evs : list (Z * option nat)) : list nat :=
  match evs with
  | [] => []
  | (mt, rd) :: r =>
      if (mt >? m)%Z
      then match rd with Some l => [l] | None => [] end ++ newer mt r
      else newer m r
  end.

Lemma live_spec : forall evs s ns,
  StronglySorted le (ns ++ [last_len s] ++ newer (last_mtime s) evs) ->
  (forall r, In r (shown s) <->
     (r + 1 < last_len s /\ ~ In (r + 1)%nat (ns ++ [last_len s]))%nat) ->
  NoDup (shown s) ->
  let f := live_run s evs in
  (forall r, In r (shown f) <->
     (r + 1 < last_len f /\ ~ In (r + 1)%nat (ns ++ [last_len s] ++ newer (last_mtime s) evs))%nat) /\
  NoDup (shown f) /\
  last_len f = last (newer (last_mtime s) evs) (last_len s).
Proof.
  induction evs as [|[mt rd] evs IH]; intros s ns HS HI ND; cbn zeta.
  - cbn. split; [exact HI|]. now split.
  - cbn [live_run fold_left live_poll newer] in *. fold (live_run (live_poll s (mt, rd)) evs).
    cbn [live_poll].
    destruct (mt >? last_mtime s)%Z eqn:E; [|now apply IH].
    destruct rd as [l|].
    + cbn [app] in HS.
      assert (L : (last_len s <= l)%nat /\ (forall k, In k ns -> k <= last_len s)%nat).
      { clear - HS. induction ns as [|a ns IHn].
        - cbn in HS. inversion HS as [|? ? _ F]; subst. inversion F; subst. split; [assumption|intros k []].
        - cbn in HS. inversion HS as [|? ? S F]; subst. destruct (IHn S) as [A B]. split; [exact A|].
          intros k [<-|Hk]; [|now apply B]. rewrite Forall_forall in F. apply F.
          apply in_or_app. right. now left. }
      destruct L as [L Lk].
      rewrite (proj2 (Nat.ltb_ge l (last_len s)) L).
      set (s' := mklive (shown s ++ plot_backlog (last_len s) l) l mt).
      destruct (IH s' (ns ++ [last_len s])) as [H1 [H2 H3]].
      * cbn [s' last_len last_mtime]. rewrite <- app_assoc. cbn [app]. exact HS.
      * intro r. cbn [s' shown last_len]. rewrite in_app_iff, HI, in_backlog.
        rewrite !in_app_iff. cbn [In]. split.
        -- intros [[A B]|[A B]].
           ++ split; [lia|]. intros [[C|[C|[]]]|[C|[]]]; try lia.
              apply B. now left.
           ++ split; [lia|]. intros [[C|[C|[]]]|[C|[]]]; try lia. specialize (Lk _ C). lia.
        -- intros [A B].
           destruct (le_lt_dec (last_len s) r) as [G|G]; [right; lia|left].
           split; [|intro C; apply B; now left].
           destruct (Nat.eq_dec (r + 1) (last_len s)) as [Q|Q]; [|lia].
           exfalso. apply B. left. right. left. lia.
      * cbn [s' shown]. clear - HI ND.
        assert (D : forall r, In r (shown s) -> ~ In r (plot_backlog (last_len s) l)).
        { intros r A B. apply HI in A. apply in_backlog in B. lia. }
        revert D ND. generalize (shown s) (backlog_nodup (last_len s) l).
        intros sh NB D ND. induction sh as [|a sh IHs]; [exact NB|].
        inversion ND; subst. cbn. constructor.
        -- rewrite in_app_iff. intros [A|A]; [easy|]. apply (D a); [now left|exact A].
        -- apply IHs; [|assumption]. intros r Hr. apply D. now right.
      * split; [|split].
        -- intro r. rewrite H1. cbn [s' last_len last_mtime].
           rewrite <- app_assoc. cbn [app]. reflexivity.
        -- exact H2.
        -- etransitivity; [exact H3|]. cbn [s' last_len last_mtime app].
           clear. destruct (newer mt evs) as [|a r]; [reflexivity|].
           revert a. induction r as [|b r IHr]; intro a; [reflexivity|].
           cbn in *. destruct r; [reflexivity|]. apply (IHr b).
    + cbn [app] in HS |- *. apply (IH (mklive (shown s) (last_len s) mt)); assumption.
Qed.

(* ------------------------------------------------------------------ *)
(* The history of a monitor *)
Lemma hist_get_add : forall h plot x y k,
  hist_get (hist_add h plot x y) k =
  if Nat.eqb plot k then (fst (hist_get h k) ++ [x], snd (hist_get h k) ++ [y]) else hist_get h k.
Proof.
  induction h as [|[j [xs ys]] h IH]; intros plot x y k.
  - cbn. destruct (Nat.eqb plot k); reflexivity.
  - cbn. destruct (Nat.eqb j plot) eqn:E.
    + apply Nat.eqb_eq in E. subst j. cbn. destruct (Nat.eqb plot k); reflexivity.
    + cbn. rewrite IH. destruct (Nat.eqb j k) eqn:F; [|reflexivity].
      apply Nat.eqb_eq in F. subst k. rewrite Nat.eqb_sym, E. reflexivity.
Qed.

Lemma scatter_get : forall d plot x y k,
  recorded (scatter d plot x y) k =
  if Nat.eqb plot k then (fst (recorded d k) ++ [x], snd (recorded d k) ++ [y]) else recorded d k.
Proof.
  intros d plot x y k. unfold scatter. cbn [recorded]. rewrite hist_get_add.
  destruct d as [[|a h]|]; reflexivity.
Qed.

Definition points_of (k : nat) (pts : list (nat * (R * R))) : list (R * R) :=
  map snd (filter (fun p => Nat.eqb (fst p) k) pts).

Lemma scatters_spec : forall pts d k,
  recorded (fold_left (fun d p => scatter d (fst p) (fst (snd p)) (snd (snd p))) pts d) k
  = (fst (recorded d k) ++ map fst (points_of k pts), snd (recorded d k) ++ map snd (points_of k pts)).
Proof.
  induction pts as [|[j [x y]] pts IH]; intros d k.
  - cbn. rewrite !app_nil_r. now destruct (recorded d k).
  - cbn [fold_left]. rewrite IH, scatter_get. unfold points_of. cbn [filter fst snd].
    destruct (Nat.eqb j k); [|reflexivity]. cbn [map fst snd]. now rewrite <- !app_assoc.
Qed.
