(* C166-C169: curves, limits, monitors and the live view of plotting.py. *)
From Coq Require Import Reals List ZArith Arith Lia Lra Sorted.
From Verif Require Import Base PlotModel PlotProofs.
Import ListNotations.
Open Scope R_scope.
Local Notation length := List.length.

(* ------------------------------------------------------------------ *)
(* C166 *)
(* However often a monitor is updated, its axes show the newest curves, in the order
   in which they were drawn: all of them up to twelve, then the newest twelve once
   and the newest thirteen for ever after. *)
Theorem C166_view : forall n : nat,
  map cframe (frames n) =
  (if n <=? 12 then seq 0 n
   else if n =? 13 then seq 1 12
   else seq (n - 13) 13)%nat.
Proof. exact frames_view. Qed.
Print Assumptions C166_view.

Theorem C166_bounded : forall n : nat, (length (frames n) <= 13)%nat.
Proof.
  intro n. rewrite <- (map_length cframe), frames_view.
  destruct (n <=? 12)%nat eqn:E; [apply Nat.leb_le in E|destruct (n =? 13)%nat];
    rewrite seq_length; lia.
Qed.
Print Assumptions C166_bounded.

(* A curve on the axes has been dimmed by the factor 0.8 once per update since it was
   drawn, or once less; it is never fainter than 0.8^11. *)
Theorem C166_opacity : forall n c, In c (frames n) ->
  (8/10)^11 <= opacity c <= 1 /\
  exists a, opacity c = (8/10)^a /\ (a <= n - 1 - cframe c <= a + 1)%nat.
Proof. exact frames_opacity. Qed.
Print Assumptions C166_opacity.

(* "Every curve that stays is dimmed" is false: from the fourteenth update on, every
   update leaves the oldest remaining curve as it was. *)
Theorem C166_fade_refuted : forall n, (14 <= n)%nat ->
  exists c, In c (frames n) /\ In c (frames (S n)) /\ calpha c = Some ((8/10)^11) /\
            cframe c = (n - 12)%nat.
Proof.
  intros n H. exists (mkcurve (n - 12) (Some ((8/10)^11))).
  replace (S n) with (14 + (n - 13))%nat by lia.
  rewrite (frames_steady (n - 13)).
  replace n with (14 + (n - 14))%nat at 2 by lia. rewrite (frames_steady (n - 14)).
  unfold steady. cbn [map curve_of fst snd alpha_of].
  replace (n - 14 + 2)%nat with (n - 12)%nat by lia.
  replace (n - 13 + 1)%nat with (n - 12)%nat by lia.
  split; [right; now left|]. split; [now left|]. now split.
Qed.
Print Assumptions C166_fade_refuted.

Example C166_example :
  map cframe (frames 20) = [7; 8; 9; 10; 11; 12; 13; 14; 15; 16; 17; 18; 19]%nat /\
  map cframe (frames 3) = [0; 1; 2]%nat /\
  map opacity (frames 3) = [8/10 * (8/10); 8/10; 1].
Proof.
  split; [rewrite frames_view; reflexivity|]. split; [rewrite frames_view; reflexivity|].
  rewrite frames_sim, map_map. erewrite map_ext; [|intro; apply opacity_of].
  cbn [nframes nage Nat.leb app map snd fst pow].
  repeat (apply f_equal2; [lra|]). reflexivity.
Qed.

(* ------------------------------------------------------------------ *)
(* C167 *)
Lemma counted_sorted : forall pts,
  StronglySorted Rle (map fst pts) -> StronglySorted Rle (map fst (counted pts)).
Proof.
  induction pts as [|[t v] pts IH]; intro H; [constructor|].
  cbn in H. inversion H as [|? ? S F]; subst. unfold counted. cbn [filter fst].
  destruct (Req_EM_T t 0) as [E|E]; [now apply IH|]. cbn [map fst]. constructor; [now apply IH|].
  rewrite Forall_forall in F |- *. intros u Hu. apply in_map_iff in Hu.
  destruct Hu as [p [<- Hp]]. apply filter_In in Hp. apply F. apply in_map, Hp.
Qed.

(* The rows at a time other than zero *)
Definition plotted (rows : list (R * list R)) : list (R * list R) :=
  filter (fun r => if Req_EM_T (fst r) 0 then false else true) rows.

Lemma counted_column : forall i rows,
  counted (column i rows) = map (fun r => (fst r, nth i (snd r) 0)) (plotted rows).
Proof.
  intros i rows. unfold counted, column, plotted. induction rows as [|r rows IH]; [reflexivity|].
  cbn [map filter fst]. destruct (Req_EM_T (fst r) 0); [exact IH|]. cbn [map]. now rewrite IH.
Qed.

(* Rows are plotted in the order of time; every quantity is positive. *)
Definition history_ok (k : nat) (rows : list (R * list R)) : Prop :=
  StronglySorted Rle (map fst rows) /\
  Forall (fun r => length (snd r) = k /\ fst r >= 0 /\ Forall (fun v => v > 0) (snd r)) rows.

Theorem C167_limits : forall n lims rows i x0 y0,
  history_ok (length lims) rows ->
  nth_error lims i = Some (x0, y0) -> fst y0 < snd y0 ->
  let g := plot_rows n (new_plotting lims) rows in
  let ts := map fst (plotted rows) in
  let vs := map (fun r => nth i (snd r) 0) (plotted rows) in
  rd_items (times g) = latest (S n) ts /\
  exists p, nth_error (axes g) i = Some p /\
    (* the curve is made of the newest points *)
    rd_items (pdata p) = latest (S n) vs /\
    (* every value ever plotted is within the limits, which are those of the
       beginning or within a tenth of some value *)
    (forall v, In v vs -> fst (ylim p) <= v <= snd (ylim p)) /\
    (snd (ylim p) = snd y0 \/ exists v, In v vs /\ snd (ylim p) <= 11/10 * v) /\
    (fst (ylim p) = fst y0 \/ exists v, In v vs /\ v <= 11/10 * fst (ylim p)) /\
    (* every time shown is within the limits, unless none has yet reached the first
       right limit *)
    ((xlim p = x0 /\ forall t, In t ts -> t < snd x0) \/
     ((forall t, In t (rd_items (times g)) -> fst (xlim p) <= t <= snd (xlim p)) /\
      In (fst (xlim p)) ts /\ exists t, In t ts /\ snd (xlim p) = 11/10 * t)).
Proof.
  intros n lims rows i x0 y0 [HS HF] Hi Hy g ts vs.
  set (p0 := mkaxis x0 y0 rd_new).
  assert (N : nth_error (axes (new_plotting lims)) i = Some p0).
  { cbn [new_plotting axes]. erewrite map_nth_error; [|exact Hi]. reflexivity. }
  destruct (plot_rows_column n rows (new_plotting lims) i p0) as [E1 E2]; [|exact N|].
  { cbn [new_plotting axes]. rewrite map_length. eapply Forall_impl; [|exact HF].
    intros r Hr. apply Hr. }
  assert (I : plot_inv n x0 y0 ([] ++ counted (column i rows))
                (fold_left (run1 n) (column i rows) (rd_new, p0))).
  { apply run1_inv.
    - now apply plot_inv_new.
    - intros pt Hpt. unfold column in Hpt. apply in_map_iff in Hpt.
      destruct Hpt as [r [<- Hr]]. cbn [fst snd]. rewrite Forall_forall in HF.
      destruct (HF r Hr) as [L [T V]]. split; [exact T|]. rewrite Forall_forall in V. apply V.
      apply nth_In. rewrite L. apply nth_error_Some. now rewrite Hi.
    - intros w [].
    - cbn [app]. apply counted_sorted. unfold column. rewrite map_map. exact HS. }
  cbn [app] in I. rewrite counted_column in I.
  destruct I as [[IT _] [[IV _] [Y X]]].
  rewrite !map_map in *. cbn [fst snd] in *.
  fold vs in IV, Y. fold ts in IT, X.
  subst g. rewrite E1. cbn [new_plotting times].
  split; [exact IT|].
  exists (snd (fold_left (run1 n) (column i rows) (rd_new, p0))).
  split; [exact E2|]. split; [exact IV|].
  destruct Y as [_ [Y1 [Y2 Y3]]]. split; [exact Y1|]. split; [exact Y2|]. split; [exact Y3|].
  exact X.
Qed.
Print Assumptions C167_limits.

(* A row at time zero leaves everything as it was. *)
Theorem C167_zero : forall n g vs, plot_row n g (0, vs) = g.
Proof. intros n g vs. unfold plot_row. cbn. destruct (Req_EM_T 0 0); [reflexivity|lra]. Qed.
Print Assumptions C167_zero.

(* Positive quantities are necessary: a value below zero is put outside the limits
   by the very update that makes room for it. *)
Theorem C167_negative_refuted :
  exists g, g = plot_rows 5 (new_plotting [((0, 1), (0, 1))]) [(1, [-1])] /\
  exists p, nth_error (axes g) 0 = Some p /\ In (-1) (rd_items (pdata p)) /\
            ~ (fst (ylim p) <= -1).
Proof.
  eexists. split; [reflexivity|]. unfold plot_rows, plot_row. cbn.
  destruct (Req_EM_T 1 0); [lra|]. eexists. split; [reflexivity|]. cbn.
  split; [now left|]. destruct (Rle_dec (-1) 0); [cbn; lra|lra].
Qed.
Print Assumptions C167_negative_refuted.

Example C167_example :
  history_ok 2 [(0, [1; 1]); (1, [5; 2]); (3, [1/10; 3])] /\
  (let g := plot_rows 5 (new_plotting [((0, 1), (0, 1)); ((0, 2), (1, 11/10))])
              [(0, [1; 1]); (1, [5; 2]); (3, [1/10; 3])] in
   map xlim (axes g) = [(1, 3 * (11/10)); (1, 3 * (11/10))] /\
   map ylim (axes g) = [(1/10/(11/10), 5); (2, 11/10*3)]) /\
  fst (1, 11/10) < snd (1, 11/10).
Proof.
  split; [|split; [|cbn; lra]].
  2: { cbn zeta. unfold plot_rows. cbn [fold_left]. rewrite C167_zero.
       unfold plot_row. cbn [fst snd].
       destruct (Req_EM_T 1 0); [lra|]. destruct (Req_EM_T 3 0); [lra|].
       cbn. unfold plot_axis. cbn. unfold Rmin, Rmax.
       repeat (match goal with |- context [Rle_dec ?a ?b] =>
         first [assert (a <= b) by lra | assert (~ a <= b) by lra];
         destruct (Rle_dec a b); [|try contradiction]; try contradiction; cbn end).
       split; reflexivity. }
  split.
  - cbn. repeat constructor; lra.
  - repeat (apply Forall_cons || apply Forall_nil); cbn;
      (split; [reflexivity|split; [lra|]]);
      repeat (apply Forall_cons || apply Forall_nil); lra.
Qed.

(* ------------------------------------------------------------------ *)
(* C168 *)
(* Two or more particles can be monitored, each on its own row of the figure ... *)
Theorem C168_monitors : forall {P} (before : list (P * list (nat * nat))) (ps : list P),
  (2 <= length ps)%nat ->
  monitor before ps =
  Ok (before ++ combine ps (map (fun j => [(j, 0); (j, 1)]%nat) (seq 0 (length ps)))).
Proof.
  intros P before ps H. unfold monitor, mk_subplots.
  destruct (length ps) as [|[|k]] eqn:E; [lia|lia|].
  rewrite <- E. cbn [rbind]. rewrite (monitor_from_rows ps 0 (length ps)) by lia. reflexivity.
Qed.
Print Assumptions C168_monitors.

(* ... but one particle cannot, nor can none. *)
Theorem C168_one_refuted : forall {P} (before : list (P * list (nat * nat))) (p : P),
  monitor before [p] = Raise TypeError /\ monitor before (@nil P) = Raise ValueError.
Proof. intros P before p. split; reflexivity. Qed.
Print Assumptions C168_one_refuted.

(* The history of a monitor holds all its points, plot by plot and in their order. *)
Theorem C168_history : forall pts k,
  recorded (scatters pts) k =
  (map (fun p => fst (snd p)) (filter (fun p => Nat.eqb (fst p) k) pts),
   map (fun p => snd (snd p)) (filter (fun p => Nat.eqb (fst p) k) pts)).
Proof.
  intros pts k. unfold scatters. rewrite scatters_spec. cbn [recorded fst snd app].
  unfold points_of. now rewrite !map_map.
Qed.
Print Assumptions C168_history.

Example C168_example :
  monitor [] ["nu"; "e"]%string = Ok [("nu"%string, [(0, 0); (0, 1)]); ("e"%string, [(1, 0); (1, 1)])]%nat /\
  recorded (scatters [(0%nat, (1, 2)); (1%nat, (3, 4)); (0%nat, (5, 6))]) 0 = ([1; 5], [2; 6]).
Proof. split; reflexivity. Qed.

(* ------------------------------------------------------------------ *)
(* C169 *)
(* While the file grows, the rows shown by the live view are those which were not
   the last row of the file at any of the readings, each once. *)
Theorem C169_rows : forall len0 m0 evs,
  StronglySorted le (len0 :: newer m0 evs) ->
  let s := live_run (live_start len0 m0) evs in
  NoDup (shown s) /\ last_len s = last (newer m0 evs) len0 /\
  forall r, In r (shown s) <->
    (r + 1 < last_len s)%nat /\ ~ In (r + 1)%nat (len0 :: newer m0 evs).
Proof.
  intros len0 m0 evs H. cbn zeta.
  destruct (live_spec evs (live_start len0 m0) []) as [A [B C]].
  - exact H.
  - intro r. cbn [live_start shown last_len]. rewrite in_backlog. cbn. lia.
  - apply backlog_nodup.
  - split; [exact B|]. split; [exact C|]. exact A.
Qed.
Print Assumptions C169_rows.

(* "The live view shows the whole file" is false for every file with a row: the last
   row is never shown ... *)
Theorem C169_last_refuted : forall len0 m0 evs,
  StronglySorted le (len0 :: newer m0 evs) ->
  let s := live_run (live_start len0 m0) evs in
  (0 < last_len s)%nat -> ~ In (last_len s - 1)%nat (shown s).
Proof.
  intros len0 m0 evs H s L I. destruct (C169_rows len0 m0 evs H) as [_ [_ R]].
  apply R in I. fold s in I. lia.
Qed.
Print Assumptions C169_last_refuted.

(* ... and a file that is read after every new row shows nothing at all. *)
Theorem C169_slow_refuted : forall n,
  shown (live_run (live_start 0 0) (map (fun k => (Z.of_nat k, Some k)) (seq 1 n))) = [] /\
  last_len (live_run (live_start 0 0) (map (fun k => (Z.of_nat k, Some k)) (seq 1 n))) = n.
Proof.
  assert (G : forall n j, live_run (mklive [] j (Z.of_nat j))
              (map (fun k => (Z.of_nat k, Some k)) (seq (S j) n)) = mklive [] (j + n) (Z.of_nat (j + n))).
  { induction n as [|n IH]; intro j; [cbn; now rewrite Nat.add_0_r|].
    cbn [seq map live_run fold_left live_poll last_mtime].
    rewrite (proj2 (Z.gtb_lt _ _)) by lia. cbn [last_len shown].
    rewrite (proj2 (Nat.ltb_ge (S j) j)) by lia.
    unfold plot_backlog. rewrite Nat.sub_diag. cbn [seq map app].
    fold (live_run (mklive [] (S j) (Z.of_nat (S j))) (map (fun k => (Z.of_nat k, Some k)) (seq (S (S j)) n))).
    rewrite IH. f_equal; [lia|f_equal; lia]. }
  intro n. change (live_start 0 0) with (mklive [] 0 (Z.of_nat 0)). rewrite G. split; reflexivity.
Qed.
Print Assumptions C169_slow_refuted.

(* A file found shorter than before starts the view afresh. *)
Theorem C169_restart : forall s mtime len,
  (mtime > last_mtime s)%Z -> (len < last_len s)%nat ->
  live_poll s (mtime, Some len) = live_start len mtime.
Proof.
  intros s mtime len H L. unfold live_poll.
  rewrite (proj2 (Z.gtb_lt _ _)) by lia. now rewrite (proj2 (Nat.ltb_lt _ _) L).
Qed.
Print Assumptions C169_restart.

(* A file whose time has not advanced is not read, and one that cannot be read changes
   nothing but the time. *)
Theorem C169_unchanged : forall s mtime rd,
  ((mtime <= last_mtime s)%Z -> live_poll s (mtime, rd) = s) /\
  ((mtime > last_mtime s)%Z ->
     live_poll s (mtime, None) = mklive (shown s) (last_len s) mtime).
Proof.
  intros s mtime rd. unfold live_poll. split; intro H.
  - destruct (mtime >? last_mtime s)%Z eqn:E; [|reflexivity]. apply Z.gtb_lt in E. lia.
  - now rewrite (proj2 (Z.gtb_lt _ _)) by lia.
Qed.
Print Assumptions C169_unchanged.

Example C169_example :
  StronglySorted le (3 :: newer 10 [(10%Z, Some 9); (11%Z, Some 6); (12%Z, None); (13%Z, Some 8)])%nat /\
  shown (live_run (live_start 3 10)
           [(10%Z, Some 9); (11%Z, Some 6); (12%Z, None); (13%Z, Some 8)])%nat = [0; 1; 3; 4; 6]%nat.
Proof. split; [cbn; repeat constructor; lia|reflexivity]. Qed.
