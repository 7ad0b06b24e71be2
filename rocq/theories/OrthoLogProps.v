(* C177: the weight t^a log(1/t) of mm_log and rec_jaclog in common/orthopoly.py. *)
From Coq Require Import Reals Psatz.
From Coquelicot Require Import Coquelicot.
From Verif Require Import Base OrthoModel OrthoSpec OrthoProofs OrthoGaussProofs OrthoProps
  OrthoJacobiProofs OrthoIntegralProofs OrthoEvalProofs OrthoPolyProps OrthoLogModel OrthoLogSpec OrthoLogProofs.
Open Scope R_scope.
Local Notation length := List.length.

(* the shifted Legendre coefficients *)
Lemma legendre_01 gamma power2 N : (2 <= N)%nat ->
  exists alpha beta, rec_jacobi01 gamma power2 (Z.of_nat N) 0 0 = Ok (Arrays alpha beta)
    /\ length alpha = N /\ length beta = N
    /\ (forall k, (k < N)%nat -> el alpha k = lal k) /\ (forall k, (0 < k < N)%nat -> el beta k = lbe k).
Proof.
  intros HN. destruct (rec_jacobi_ok gamma power2 N 0 0 ltac:(lra) ltac:(lra) HN) as (al & be & E & La & Lb & Ea & Eb).
  unfold rec_jacobi01. destruct (Rle_dec 0 (-1)); [lra|]. destruct (Z.ltb_spec (Z.of_nat N) 1); [lia|].
  rewrite E. cbn [rbind]. destruct be as [|b0 bt]; [cbn in Lb; lia|]. cbn [py_get]. 
  eexists _, _. split; [reflexivity|]. split; [now rewrite map_length|]. split; [|split].
  - cbn. rewrite map_length. exact Lb.
  - intros k Hk. rewrite el_map, Ea by lia. unfold jal, lal. destruct k as [|k].
    + field.
    + pose proof (pos_INR k). rewrite S_INR. field. lra.
  - intros [|k] Hk; [lia|]. specialize (Eb (S k) ltac:(lia)).
    cbn [map set_nth]. unfold el in *. cbn [nth] in *. change (nth k (map (fun d => d / 4) bt) 0) with (el (map (fun d => d / 4) bt) k).
    rewrite el_map by (cbn in Lb; lia). unfold el. rewrite Eb. unfold jbe, lbe. destruct k as [|k].
    + simpl. field.
    + pose proof (pos_INR k). rewrite !S_INR. field. repeat split; try lra; nra.
Qed.
Lemma legendre_monic alpha beta N n x :
  (forall k, (k < N)%nat -> el alpha k = lal k) -> (forall k, (0 < k < N)%nat -> el beta k = lbe k) -> (n <= N)%nat ->
  monic (el alpha) (el beta) n x = monic lal lbe n x.
Proof.
  intros Ha Hb. revert n. induction n as [n IH] using lt_wf_ind. intros Hn. destruct n as [|[|n]].
  - now rewrite !monic_0.
  - rewrite !monic_1, Ha by lia. reflexivity.
  - rewrite !monic_SS, !IH, Ha, Hb by lia. reflexivity.
Qed.

(* Every number mm_log returns is the integral of the monic shifted Legendre
   polynomial (the one with rec_jacobi01's coefficients) against the weight. *)
Theorem C177_moments : forall gamma power2 v N M a l alpha beta,
  gamma_ok gamma -> -1 < value a ->
  log_moments gamma v N a = Ok l ->
  rec_jacobi01 gamma power2 M 0 0 = Ok (Arrays alpha beta) -> (Z.of_nat N <= M)%Z ->
  length l = N /\
  forall n x, (n < N)%nat -> nth n l None = Some x ->
    log_integral (value a) (monic (el alpha) (el beta) n) x.
Proof.
  intros gamma power2 v N M a l alpha beta HG Ha HL HJ HM.
  unfold log_moments in HL. destruct (mm_log _ _ _ _) as [u|]; [|discriminate]. cbn [rbind] in HL.
  injection HL as <-. split; [now rewrite map_length, seq_length|].
  intros n x Hn Hx.
  rewrite (nth_indep _ None (log_moment gamma a 0)), map_nth, seq_nth in Hx by (rewrite ?map_length, ?seq_length; lia).
  cbn [Nat.add] in Hx. apply (log_moment_value gamma a n x HG Ha) in Hx. rewrite <- Hx.
  assert (M2 : (2 <= M)%Z).
  { destruct (Z.lt_ge_cases M 2) as [L|?]; [exfalso|assumption]. assert (M = 1)%Z by lia. subst M.
    destruct (C160_orders gamma power2 1 0 0 ltac:(lra) ltac:(lra)) as (_ & E & _). rewrite E in HJ. discriminate. }
  destruct (legendre_01 gamma power2 (Z.to_nat M) ltac:(lia)) as (al & be & E & _ & _ & Ea & Eb).
  rewrite Z2Nat.id in E by lia. rewrite E in HJ. injection HJ as -> ->.
  apply (log_integral_ext _ (monic lal lbe n)).
  - intros t. symmetry. apply (legendre_monic _ _ (Z.to_nat M)); auto. lia.
  - apply logint_correct; [exact Ha|apply polynomial_monic].
Qed.

(* Which entries are numbers: all of them, unless the parameter is a whole number
   not passed as an int; then all entries after the first a + 1 are nan. *)
Theorem C177_numbers : forall gamma v N a l, -1 < value a ->
  log_moments gamma v N a = Ok l ->
  forall n, (n < N)%nat -> (nth n l None = None <-> exists m, (m < n)%nat /\ a = Float (INR m)).
Proof.
  intros gamma v N a l Ha HL n Hn.
  unfold log_moments in HL. destruct (mm_log _ _ _ _) as [u|]; [|discriminate]. cbn [rbind] in HL. injection HL as <-.
  rewrite (nth_indep _ None (log_moment gamma a 0)), map_nth, seq_nth by (rewrite ?map_length, ?seq_length; lia).
  cbn [Nat.add]. unfold log_moment, raw_entry. cbv zeta.
  assert (A : forall s n, array_entry s n = None <-> exists k, (1 <= k <= n)%nat /\ s + 1 - INR k = 0).
  { intros s j. unfold array_entry. cbv zeta. destruct (existsb _ _) eqn:X.
    - apply existsb_exists in X. destruct X as (r & Hr & E). apply in_map_iff in Hr. destruct Hr as (k & <- & Hk). apply in_seq in Hk.
      destruct (Req_EM_T _ 0); [|discriminate]. split; [intros _; exists k; split; [lia|assumption]|reflexivity].
    - split; [discriminate|]. intros (k & Hk & E). exfalso.
      assert (T : existsb (fun k => if Req_EM_T (s + 1 - k) 0 then true else false) (map INR (seq 1 j)) = true).
      { apply existsb_exists. exists (INR k). split; [apply in_map; apply in_seq; lia|]. destruct (Req_EM_T _ 0); [reflexivity|contradiction]. }
      congruence. }
  destruct a as [z|s]; cbn [value] in *.
  - split; [|intros (m & _ & E); discriminate]. intros H. exfalso.
    destruct (Z.ltb_spec z (Z.of_nat n)) as [Hz|Hz]; [discriminate|].
    destruct n as [|n]; [discriminate|]. destruct (array_entry (IZR z) (S n)) eqn:E; [discriminate|].
    apply A in E. destruct E as (k & Hk & E). rewrite INR_IZR_INZ in E.
    assert (IZR z + 1 <= IZR (Z.of_nat k)) by lra. rewrite <- plus_IZR in H0. apply le_IZR in H0. lia.
  - destruct n as [|n].
    + split; [discriminate|]. intros (m & Hm & _). lia.
    + destruct (array_entry s (S n)) eqn:E.
      * split; [discriminate|]. intros (m & Hm & Es). injection Es as ->. exfalso.
        assert (X : array_entry (INR m) (S n) = None); [|congruence]. apply A. exists (S m). split; [lia|]. rewrite S_INR. ring.
      * split; [intros _|reflexivity]. apply A in E. destruct E as (k & Hk & E). exists (pred k). split; [lia|].
        f_equal. destruct k as [|k]; [lia|]. cbn [pred]. rewrite S_INR in E. lra.
Qed.

(* "The moments exist for every a > -1" is false even on Python 2. *)
Theorem C177_refuted :
  ~ (forall gamma N a, gamma_ok gamma -> -1 < value a ->
       exists l, log_moments gamma Py2 N a = Ok l /\ Forall (fun e => e <> None) l).
Proof.
  intros H. destruct (H gamma0 3%nat (Float 1) gamma0_ok ltac:(cbn; lra)) as (l & E & F).
  pose proof (proj2 (C177_numbers gamma0 Py2 3 (Float 1) l ltac:(cbn; lra) E 2 ltac:(lia))) as X.
  assert (L : length l = 3%nat).
  { unfold log_moments in E. destruct (mm_log _ _ _ _); [|discriminate]. injection E as <-. reflexivity. }
  rewrite Forall_forall in F. apply (F (nth 2 l None)).
  - apply nth_In. lia.
  - apply X. exists 1%nat. split; [lia|reflexivity].
Qed.

(* On Python 2 rec_jaclog returns the recursion coefficients of the weight, at
   every order, when the moments are numbers. *)
Lemma mm_log_entries gamma entry N a : (1 <= N)%nat -> -1 < value a ->
  (forall n, (n < N)%nat -> log_moment gamma a n = Some (match n with O => 1 / (value a + 1) ^ 2 | _ => entry (value a) n end)) ->
  exists mom, mm_log Py2 entry N (value a) = Ok mom /\ length mom = N
    /\ forall n, (n < N)%nat -> log_moment gamma a n = Some (el mom n).
Proof.
  intros HN Ha H. unfold mm_log. destruct (Rle_dec (value a) (-1)) as [|_]; [lra|].
  eexists. split; [destruct (Nat.ltb 1 N); reflexivity|]. destruct N as [|N]; [lia|]. split.
  - cbn. now rewrite map_length, seq_length.
  - intros [|n] Hn; [apply (H O); lia|]. rewrite H by lia. f_equal. unfold el. cbn [nth].
    rewrite (nth_indep _ 0 (entry (value a) 0%nat)), map_nth, seq_nth by (rewrite ?map_length, ?seq_length; lia). reflexivity.
Qed.
Theorem C177_coefficients : forall gamma power2 entry N a, gamma_ok gamma -> (1 <= N)%nat -> -1 < value a ->
  (forall n, (1 <= n < 2 * N)%nat -> log_moment gamma a n = Some (entry (value a) n)) ->
  exists alpha beta, rec_jaclog gamma power2 Py2 entry (Z.of_nat N) (value a) = Ok (alpha, beta)
    /\ length alpha = N /\ length beta = N /\ (forall k, (k < N)%nat -> 0 < el beta k)
    /\ log_integral (value a) (fun _ => 1) (el beta 0)
    /\ forall k l, (k < l <= N)%nat ->
         log_integral (value a) (fun t => monic (el alpha) (el beta) k t * monic (el alpha) (el beta) l t) 0.
Proof.
  intros gamma power2 entry N a HG HN Ha He. unfold rec_jaclog.
  destruct (legendre_01 gamma power2 (2 * N) ltac:(lia)) as (aj & bj & E & La & Lb & Ea & Eb).
  replace (2 * Z.of_nat N)%Z with (Z.of_nat (2 * N)) by lia. rewrite E. cbn [rbind]. rewrite Nat2Z.id.
  destruct (mm_log_entries gamma entry (2 * N) a) as (mom & EM & LM & HM); [lia|exact Ha| |].
  { intros [|n] Hn; [|apply He; lia]. unfold log_moment, raw_entry. cbv zeta. cbn [factor].
    destruct a as [z|s]; [|now rewrite Rmult_1_r]. destruct (Z.ltb_spec z (Z.of_nat 0)) as [Hz|]; [|now rewrite Rmult_1_r].
    exfalso. cbn [value] in Ha. apply lt_IZR in Ha. lia. }
  rewrite EM. cbn [rbind].
  destruct (C156_coefficients (logint (value a)) N mom aj bj HN (logint_functional _ Ha) (logint_positive _ N Ha) LM)
    as (alpha & beta & nsq & E2 & L1 & L2 & _ & (H0 & HO) & Hp & _); [|lia|lia|].
  { intros m Hm. pose proof (log_moment_value gamma a m _ HG Ha (HM m Hm)) as V. rewrite <- V.
    apply (proj1 (logint_functional _ Ha)). intros t. symmetry. apply (legendre_monic _ _ (2 * N)); auto. lia. }
  rewrite E2. cbn [rbind]. exists alpha, beta. repeat (split; [try reflexivity; assumption|]). split.
  - rewrite <- H0. apply logint_correct; [exact Ha|apply polynomial_const].
  - intros k l Hkl. rewrite <- (HO k l Hkl). apply logint_correct; [exact Ha|]. apply polynomial_mult; apply polynomial_monic.
Qed.

(* and gauss turns them into a rule exact for the weight below degree 2N *)
Theorem C177_gauss : forall eig gamma power2 entry N a alpha beta x w, eig_sound eig -> gamma_ok gamma -> (1 <= N)%nat -> -1 < value a ->
  (forall n, (1 <= n < 2 * N)%nat -> log_moment gamma a n = Some (entry (value a) n)) ->
  rec_jaclog gamma power2 Py2 entry (Z.of_nat N) (value a) = Ok (alpha, beta) ->
  gauss eig alpha beta = Ok (x, w) ->
  length x = N /\ length w = N /\ forall f, poly_lt (2 * N) f -> log_integral (value a) f (rule x w f).
Proof.
  intros eig gamma power2 entry N a alpha beta x w HE HG HN Ha He HR HW.
  destruct (C177_coefficients gamma power2 entry N a HG HN Ha He) as (al & be & E & L1 & L2 & Hp & H0 & HO).
  rewrite E in HR. injection HR as -> ->.
  destruct (C153_exact eig alpha beta x w (logint (value a)) HE HW) as (Lx & Lw & X).
  - intros k Hk. apply Hp. lia.
  - now apply logint_functional.
  - split; [now apply logint_is|]. intros k l Hkl. apply logint_is. apply HO. lia.
  - split; [lia|]. split; [lia|]. intros f Hf. rewrite X by (rewrite L1; exact Hf). apply logint_correct; [exact Ha|]. now exists (2 * N)%nat.
Qed.

(* log(1/t) itself: moments 1, -1/4, 1/36 *)
Example C177_example :
  log_moments gamma0 Py2 3 (Int 0) = Ok [Some 1; Some (- (1 / 4)); Some (1 / 36)]
  /\ exists alpha beta, rec_jaclog gamma0 (Rpower 2) Py2 (fun _ n => match n with 1%nat => - (1 / 4) | _ => 0 end) 1 0 = Ok (alpha, beta)
       /\ length alpha = 1%nat /\ log_integral 0 (fun _ => 1) (el beta 0).
Proof.
  assert (G : gamma0 (IZR 0 + 1) = 1) by (exact (gamma0_ok O)).
  assert (M1 : log_moment gamma0 (Int 0) 1 = Some (- (1 / 4))).
  { change (Some ((-1) ^ 1 / prod [1; 2] * gamma0 (IZR 0 + 1) ^ 2 * factor 1) = Some (- (1 / 4))). rewrite G. f_equal. cbn. field. }
  split.
  - unfold log_moments, mm_log. cbn [value]. destruct (Rle_dec 0 (-1)); [lra|]. cbn [Nat.ltb Nat.leb py2_builtin rbind seq map].
    rewrite M1. do 2 f_equal; [|f_equal; f_equal].
    + unfold log_moment, raw_entry. cbn. f_equal. field.
    + change (Some ((-1) ^ 2 / prod [2; 3] * gamma0 (IZR 0 + 1) ^ 2 * factor 2) = Some (1 / 36)). rewrite G. f_equal. cbn. field.
  - destruct (C177_coefficients gamma0 (Rpower 2) (fun _ n => match n with 1%nat => - (1 / 4) | _ => 0 end) 1 (Int 0) gamma0_ok (le_n 1) ltac:(cbn; lra))
      as (al & be & E & L & _ & _ & H & _).
    + intros n Hn. assert (n = 1%nat) by lia. subst n. exact M1.
    + exists al, be. auto.
Qed.
Print Assumptions C177_moments.
Print Assumptions C177_numbers.
Print Assumptions C177_refuted.
Print Assumptions C177_coefficients.
Print Assumptions C177_gauss.
