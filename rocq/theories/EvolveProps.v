(* C21-C26, C99, C100: the evolution loop, its exports and the KAWANO table. *)
From Coq Require Import Reals Lra.
From Verif Require Import Base EvolveModel EvolveProofs.
Open Scope R_scope.

(* A concrete world: temperatures 4, 3, 2, 1, 1, ... *)
Definition ex_temp (k : nat) : xr := Fin (match k with O => 4 | S O => 3 | S (S O) => 2 | _ => 1 end).
Definition ex_world (freq : nat) (fold kaw : bool) (kr : option failure) : world nat nat nat :=
  mkworld nat nat nat ex_temp (fun k => k) (fun k => inl (10 * k)%nat) (fun _ s => inl s)
    (fun s _ => inl (S s)) (fun _ => kr) (Fin 2) freq fold kaw.
Definition ex_u : universe nat nat nat := mkU 0%nat [] [] 1%nat [].
Ltac xr_decide := lazy -[Rlt_dec Rle_dec IZR]; repeat (lazy -[Rlt_dec Rle_dec IZR]; match goal with
  | |- context [Rlt_dec ?a ?b] => destruct (Rlt_dec a b); [try (exfalso; lra)|try (exfalso; lra)]
  | |- context [Rle_dec ?a ?b] => destruct (Rle_dec a b); [try (exfalso; lra)|try (exfalso; lra)]
  end).

(* C21 *)
Theorem C21_evolve_postcondition :
  forall St row krow (w : world St row krow) fuel Tf ex it u u',
  evolve w fuel Tf ex it u = Some (Done u') ->
  exists s0 l, start w it (ust u) = inl s0 /\
    traj w (udata u ++ [row_of w s0]) s0 l /\
    ust u' = last l s0 /\
    udata u' = udata u ++ map (row_of w) (s0 :: l) /\
    ustep u' = (ustep u + length l)%nat /\
    Forall (fun s => xlt_spec Tf (temp w s)) (removelast (s0 :: l)) /\
    xlt_spec (Fin 0) (temp w (ust u')) /\
    (Tf = NaN \/ xle_spec (temp w (ust u')) Tf).
Proof. intros St row krow w. exact (evolve_done w). Qed.
Print Assumptions C21_evolve_postcondition.
Example C21_ex : exists u', evolve (ex_world 100 false false None) 5 (Fin 1) true true ex_u = Some (Done u')
  /\ udata u' = [0; 1; 2; 3]%nat /\ ustep u' = 4%nat.
Proof. eexists. split; [|split]; [xr_decide; reflexivity|reflexivity|reflexivity]. Qed.

(* C22 *)
Theorem C22_broken_temperature_exits :
  forall St row krow (w : world St row krow) fuel Tf ex it u s0 n u',
  start w it (ust u) = inl s0 ->
  iterate w n (save_params w (with_st u s0)) = Done u' -> (n <= fuel)%nat ->
  (forall k uk, (k < n)%nat -> iterate w k (save_params w (with_st u s0)) = Done uk ->
     xlt_spec Tf (temp w (ust uk))) ->
  ~ xlt_spec (Fin 0) (temp w (ust u')) ->
  (temp w (ust u') = NaN \/ xle_spec (Fin 0) Tf \/ Tf = NaN) ->
  evolve w fuel Tf ex it u = Some (Fail (Exc (Exit 1)) u').
Proof. intros St row krow w. exact (evolve_broken w). Qed.
Print Assumptions C22_broken_temperature_exits.
Theorem C22_interrupt_exits :
  forall St row krow (w : world St row krow) fuel Tf ex it u s0 n u1 u' e,
  start w it (ust u) = inl s0 ->
  iterate w n (save_params w (with_st u s0)) = Done u1 -> (n < fuel)%nat ->
  (forall k uk, (k <= n)%nat -> iterate w k (save_params w (with_st u s0)) = Done uk ->
     xlt_spec Tf (temp w (ust uk))) ->
  body w u1 = Fail e u' ->
  evolve w fuel Tf ex it u = Some (Fail (match e with KeyboardInterrupt => Exc (Exit 1) | _ => e end) u').
Proof. intros St row krow w. exact (evolve_interrupted w). Qed.
Print Assumptions C22_interrupt_exits.
Definition nan_world : world nat nat nat :=
  mkworld nat nat nat (fun k => match k with O => Fin 4 | S O => Fin 3 | _ => NaN end) (fun k => k)
    (fun k => inl k) (fun _ s => inl s) (fun s _ => inl (S s)) (fun _ => None) (Fin 2) 100 false false.
Example C22_ex : exists u', evolve nan_world 9 (Fin 1) true true ex_u = Some (Fail (Exc (Exit 1)) u') /\ ust u' = 2%nat.
Proof. eexists. split; [xr_decide; reflexivity|reflexivity]. Qed.

(* C23 *)
Theorem C23_running_snapshot :
  forall St row krow (w : world St row krow) n u s0 u',
  udata u = [] -> ukdata u = [] -> ustep u = 1%nat -> uev u = [] ->
  folder w = true -> (1 < export_freq w)%nat ->
  iterate w n (save_params w (with_st u s0)) = Done u' ->
  ustep u' = S n /\ length (udata u') = S n /\
  replayE (uev u') =
    (let m := (S n / export_freq w * export_freq w)%nat in
     if (m =? 0)%nat then None else Some (firstn m (udata u'))).
Proof.
  intros St row krow w n u s0 u' H1 H2 H3 H4 HF HQ HI.
  apply (running_snapshot w n u s0 u'); auto; [repeat split; auto|lia].
Qed.
Print Assumptions C23_running_snapshot.
Theorem C23_final_export_is_whole_history :
  forall St row krow (w : world St row krow) fuel Tf it u u', folder w = true ->
  evolve w fuel Tf true it u = Some (Done u') -> replayE (uev u') = Some (udata u').
Proof. intros St row krow w. exact (evolve_final_export w). Qed.
Print Assumptions C23_final_export_is_whole_history.
Theorem C23_every_moment_is_a_prefix :
  forall St row krow (w : world St row krow) fuel Tf ex it u u',
  uev u = [] -> evolve w fuel Tf ex it u = Some (Done u') ->
  forall pre post, uev u' = pre ++ post ->
  replayE pre = None \/ exists l rest, replayE pre = Some l /\ udata u' = l ++ rest.
Proof.
  intros St row krow w fuel Tf ex it u u' HE H pre post HP.
  assert (HC : crash_ok u).
  { intros p (r & E). rewrite HE in E. destruct p; [exact I|discriminate]. }
  pose proof (evolve_crash_ok w fuel Tf ex it u u' HC H pre (ex_intro _ post HP)) as HS.
  destruct (replayE pre) as [l|]; [right|left; reflexivity]. destruct HS as (r & Hr). eauto.
Qed.
Print Assumptions C23_every_moment_is_a_prefix.
Example C23_ex : exists u', iterate (ex_world 2 true false None) 4 (save_params (ex_world 2 true false None) ex_u) = Done u'
  /\ replayE (uev u') = Some [0; 1; 2; 3]%nat /\ udata u' = [0; 1; 2; 3; 4]%nat.
Proof. eexists. split; [xr_decide; reflexivity|split; reflexivity]. Qed.

(* C24: a run in which the file was complete at one moment and is empty at a
   later one: a crash there loses the last snapshot. *)
Theorem C24_export_crash_safe_refuted :
  exists (w : world nat nat nat) n u', folder w = true /\
  iterate w n (save_params w ex_u) = Done u' /\
  exists pre1 pre2 post, uev u' = (pre1 ++ pre2) ++ post /\
    (exists l, replayE pre1 = Some l /\ l <> []) /\ replayE (pre1 ++ pre2) = Some [].
Proof.
  exists (ex_world 2 true false None), 3%nat. eexists. split; [reflexivity|]. split; [lazy -[Rlt_dec Rle_dec IZR]; reflexivity|].
  exists [TruncE; PutE 0%nat; PutE 1%nat], [TruncE]. eexists. split; [reflexivity|].
  split; [|reflexivity]. eexists. split; [reflexivity|discriminate].
Qed.
Print Assumptions C24_export_crash_safe_refuted.
Theorem C24_every_export_has_an_empty_window :
  forall St row krow (w : world St row krow) u u', body w u = Done u' -> folder w = true ->
  Nat.modulo (ustep u') (export_freq w) = 0%nat ->
  exists pre rest post, pre = uev u ++ rest /\ uev u' = pre ++ post /\ replayE pre = Some [].
Proof.
  intros St row krow w u u' HB HF HM.
  destruct (snapshot_window w u u' HB HF HM) as (pre & (r & H1) & (p & H2) & H3). eauto 7.
Qed.
Print Assumptions C24_every_export_has_an_empty_window.

(* C25 *)
Theorem C25_kawano_rows_are_the_cold_steps :
  forall St row krow (w : world St row krow) fuel Tf ex it u u',
  evolve w fuel Tf ex it u = Some (Done u') -> kawano w = true ->
  exists s0 l ks, start w it (ust u) = inl s0 /\ traj w (udata u ++ [row_of w s0]) s0 l /\
    udata u' = udata u ++ map (row_of w) (s0 :: l) /\
    ukdata u' = ukdata u ++ ks /\
    Forall2 (fun s k => rates w s = inl k) (filter (fun s => xle (temp w s) (T_kawano w)) l) ks.
Proof. intros St row krow w. exact (evolve_kawano w). Qed.
Print Assumptions C25_kawano_rows_are_the_cold_steps.
Theorem C25_comparison_is_the_float_order :
  forall x y, xle x y = true <-> xle_spec x y.
Proof. exact xle_iff. Qed.
Print Assumptions C25_comparison_is_the_float_order.
Theorem C25_s4_file_holds_the_same_rows :
  forall St row krow (w : world St row krow) n u u',
  replayS (uev u) = ukdata u -> iterate w n u = Done u' -> replayS (uev u') = ukdata u'.
Proof. intros St row krow w. exact (iterate_s4 w). Qed.
Print Assumptions C25_s4_file_holds_the_same_rows.
Theorem C25_kawano_without_folder_raises :
  forall St row krow (w : world St row krow) u s k, folder w = false -> kawano w = true ->
  make_step w (ust u) (udata u) = inl s -> xle (temp w s) (T_kawano w) = true -> rates w s = inl k ->
  exists u', body w u = Fail (Exc AttributeError) u'.
Proof. intros St row krow w. exact (kawano_without_folder w). Qed.
Print Assumptions C25_kawano_without_folder_raises.
Example C25_ex : exists u', evolve (ex_world 100 true true None) 5 (Fin 1) true true ex_u = Some (Done u')
  /\ ukdata u' = [20; 30]%nat /\ replayS (uev u') = [20; 30]%nat.
Proof. eexists. split; [xr_decide; reflexivity|split; reflexivity]. Qed.

(* C26 *)
Theorem C26_temperature_derivative :
  forall (logmode : bool) (aT a : R -> R) (t H m fraction : R),
  m <> 0 -> a t <> 0 ->
  derivable_pt_lim a t (H * a t) ->
  derivable_pt_lim aT t (fraction * (if logmode then H else m * (H * a t))) ->
  derivable_pt_lim (fun s => aT s / a s) t (dTdt logmode fraction (aT t) (aT t / a t) (a t) H m).
Proof. exact dTdt_chain. Qed.
Print Assumptions C26_temperature_derivative.
Example C26_ex : (* constant aT, a = exp: T falls like a^-1 *)
  derivable_pt_lim exp 0 (1 * exp 0) /\ derivable_pt_lim (fun _ => 3) 0 (0 * 1) /\
  dTdt true 0 3 (3 / exp 0) (exp 0) 1 1 = -3.
Proof.
  split; [rewrite Rmult_1_l; apply derivable_pt_lim_exp|]. split.
  - rewrite Rmult_0_l. apply derivable_pt_lim_const.
  - unfold dTdt. rewrite exp_0. field.
Qed.

(* C99 *)
Theorem C99_history_exported_when_kawano_fails_refuted :
  exists (w : world nat nat nat) fuel Tf u e, folder w = true /\
  evolve w fuel Tf true true ex_u = Some (Fail e u) /\ replayE (uev u) = None /\ udata u <> [].
Proof.
  exists (ex_world 100 true true (Some (Exc GenericException))), 5%nat, (Fin 1). do 2 eexists.
  split; [reflexivity|]. split; [xr_decide; reflexivity|].
  split; [reflexivity|discriminate].
Qed.
Print Assumptions C99_history_exported_when_kawano_fails_refuted.
Theorem C99_kawano_failure_skips_the_export :
  forall St row krow (w : world St row krow) fuel Tf it u s0 u1 e,
  start w it (ust u) = inl s0 ->
  loop w fuel Tf (save_params w (with_st u s0)) = Some (Done u1) ->
  xlt_spec (Fin 0) (temp w (ust u1)) -> folder w = true -> kawano w = true ->
  kawano_run w (ust u1) = Some e ->
  evolve w fuel Tf true it u = Some (Fail e (emit u1 [CloseS])).
Proof. intros St row krow w. exact (export_failure w). Qed.
Print Assumptions C99_kawano_failure_skips_the_export.

(* C100 *)
Theorem C100_split_run_equals_single_run_refuted :
  exists (w : world nat nat nat) fuel T1 T2 u1 u2 u',
  evolve w fuel T1 false false ex_u = Some (Done u1) /\
  evolve w fuel T2 false false u1 = Some (Done u2) /\
  evolve w fuel T2 false false ex_u = Some (Done u') /\
  udata u2 <> udata u'.
Proof.
  exists (ex_world 100 false false None), 5%nat, (Fin 2), (Fin 1). do 3 eexists.
  split; [xr_decide; reflexivity|].
  split; [xr_decide; reflexivity|].
  split; [xr_decide; reflexivity|]. discriminate.
Qed.
Print Assumptions C100_split_run_equals_single_run_refuted.
Theorem C100_split_run_repeats_a_row :
  forall St row krow (w : world St row krow) fuel T1 T2 e1 e2 i1 i2 u u1 u2,
  evolve w fuel T1 e1 i1 u = Some (Done u1) -> evolve w fuel T2 e2 i2 u1 = Some (Done u2) ->
  exists s0 l1 s1 l2, udata u1 = udata u ++ map (row_of w) (s0 :: l1) /\
    start w i2 (last l1 s0) = inl s1 /\
    udata u2 = udata u ++ map (row_of w) (s0 :: l1) ++ map (row_of w) (s1 :: l2).
Proof.
  intros St row krow w fuel T1 T2 e1 e2 i1 i2 u u1 u2 H1 H2.
  destruct (evolve_done w _ _ _ _ _ _ H1) as (s0 & l1 & _ & _ & A2 & A3 & _).
  destruct (evolve_done w _ _ _ _ _ _ H2) as (s1 & l2 & B0 & _ & _ & B3 & _).
  exists s0, l1, s1, l2. split; [exact A3|]. split; [congruence|]. rewrite B3, A3. now rewrite <- app_assoc.
Qed.
Print Assumptions C100_split_run_repeats_a_row.
(* export() closes the table for KAWANO: a further run raises at its first step
   cold enough for KAWANO, so one that ends had none. *)
Theorem C100_no_kawano_steps_after_an_export :
  forall St row krow (w : world St row krow) fuel T1 T2 e2 i1 i2 u u1 u2,
  folder w = true -> kawano w = true ->
  evolve w fuel T1 true i1 u = Some (Done u1) -> evolve w fuel T2 e2 i2 u1 = Some (Done u2) ->
  exists s1 l2, start w i2 (ust u1) = inl s1 /\
    udata u2 = udata u1 ++ map (row_of w) (s1 :: l2) /\
    ukdata u2 = ukdata u1 /\
    Forall (fun s => ~ xle_spec (temp w s) (T_kawano w)) l2.
Proof.
  intros St row krow w fuel T1 T2 e2 i1 i2 u u1 u2 HF HK H1 H2.
  apply (evolve_closed w fuel T2 e2 i2 u1 u2); auto. eapply export_closes; eauto.
Qed.
Print Assumptions C100_no_kawano_steps_after_an_export.
Example C100_ex : exists u1 u2,
  evolve (ex_world 100 true true None) 5 (Fin 2) true false ex_u = Some (Done u1) /\
  evolve (ex_world 100 true true None) 5 (Fin 1) true false u1 = Some (Fail (Exc ValueError) u2).
Proof.
  do 2 eexists. split; [xr_decide; reflexivity|]. xr_decide; reflexivity.
Qed.
