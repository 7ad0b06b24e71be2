(* The size of the weak rates and of the estimates of the monitor (C87, C95).
   Numbers are written out in GeV. *)
From Coq Require Import Reals Lra Psatz.
From Verif Require Import Base IntegratorsModel IntegratorsProofs ParamsModel ParamsProofs EvolveModel KawanoModel KawanoProofs KawanoProps.
Open Scope R_scope.

Lemma MeV_is : MeV = / 1000.
Proof. unfold MeV, eV. assert (10 ^ 9 = 1000000000) by ring. lra. Qed.
Lemma qnp_is : qnp = 1293332 / 1000000000.
Proof. unfold qnp. rewrite MeV_is. lra. Qed.
Lemma me_is : m_e = 511 / 1000000.
Proof. unfold m_e. rewrite MeV_is. lra. Qed.

(* ---------- C87 ---------- *)
(* the rates depend on physical quantities only: scaling the scale factor, the
   grid and the arguments of the distributions together changes nothing *)
Lemma shape_homogeneous s a E y o o' : 0 < s -> (forall ye, o (s * ye) = o' ye) -> rate_shape (s * a) (s * E) (s * y) o = s ^ 4 * rate_shape a E y o'.
Proof.
  intros Hs Ho. unfold rate_shape. destruct (Rlt_dec (s * E) (m_e * (s * a))) as [H1|H1], (Rlt_dec E (m_e * a)) as [H2|H2]; try (exfalso; nra); [ring|].
  cbn zeta. assert (HE : sqrt ((s * E) ^ 2 - (m_e * (s * a)) ^ 2) = s * sqrt (E ^ 2 - (m_e * a) ^ 2)).
  { replace ((s * E) ^ 2 - (m_e * (s * a)) ^ 2) with (s ^ 2 * (E ^ 2 - (m_e * a) ^ 2)) by ring. rewrite sqrt_mult_alt by nra. f_equal. replace (s ^ 2) with (Rsqr s) by (unfold Rsqr; ring). apply sqrt_Rsqr. lra. }
  rewrite HE, Ho. ring.
Qed.
Lemma channel_homogeneous q s k k' f f' lo hi : 0 < s -> 0 < kpa k -> kpa k' = s * kpa k -> (forall y, f' (s * y) = s ^ 4 * f y) ->
  channel q k' f' (s * lo) (s * hi) = channel q k f lo hi.
Proof.
  intros Hs Hk Ek Hf. unfold channel. destruct (Rlt_dec (s * lo) (s * hi)) as [H1|H1], (Rlt_dec lo hi) as [H2|H2]; try (exfalso; nra); [|reflexivity].
  rewrite !gaussian_eq. rewrite (rule_sum_ext q _ (fun x => s ^ 4 * f ((hi - lo) / 2 * x + (hi + lo) / 2))).
  - rewrite rule_sum_scal, Ek. field. split; lra.
  - intros x. rewrite <- Hf. f_equal. lra.
Qed.
Definition rescaled (s : R) (k : kparts) : kparts := mkKparts (fun y => fe k (y / s)) (fun y => fnu k (y / s)) (s * ymin k) (s * ymax k) (s * kpa k).
Theorem C87_comoving : forall q s k a, 0 < s -> 0 < kpa k -> baryonic_rates q (Some (rescaled s k)) (s * a) = baryonic_rates q (Some k) a.
Proof.
  intros q s k a Hs Hk. unfold baryonic_rates.
  assert (D : forall y, s * y / s = y) by (intros y; field; lra).
  replace ((qnp - m_e) * (s * a)) with (s * ((qnp - m_e) * a)) by ring. replace ((qnp + m_e) * (s * a)) with (s * ((qnp + m_e) * a)) by ring.
  cbn [ymin ymax rescaled].
  repeat (apply f_equal2 || apply f_equal || (apply (channel_homogeneous q s k (rescaled s k)); [exact Hs|exact Hk|reflexivity|]; intros y)).
  all: try reflexivity.
  all: unfold rate1, rate2, rate3, rate4, rate5, rate6.
  all: try replace (qnp * (s * a) + s * y) with (s * (qnp * a + y)) by ring.
  all: try replace (qnp * (s * a) - s * y) with (s * (qnp * a - y)) by ring.
  all: try replace (- qnp * (s * a) + s * y) with (s * (- qnp * a + y)) by ring.
  all: apply shape_homogeneous; [exact Hs|]; intros ye; cbn [fe fnu rescaled]; rewrite !D; reflexivity.
Qed.
Print Assumptions C87_comoving.

(* the first capture rate and the neutron decay rate at one quadrature node, in
   numbers: 17.5426 MeV^-5 times the phase space element *)
Theorem C87_value : forall k x w, ymin k < ymax k -> 0 < kpa k -> let y := (ymax k - ymin k) / 2 * x + (ymax k + ymin k) / 2 in 0 <= y ->
  let E := 1293332 / 1000000000 * kpa k + y in let p := sqrt (E ^ 2 - (511 / 1000000 * kpa k) ^ 2) in
  exists l, baryonic_rates [(x, w)] (Some k) (kpa k) = Ok l /\
    nth 0 l 0 = 175426 / 10000 * 1000 ^ 5 / kpa k ^ 5 * ((ymax k - ymin k) / 2 * (w * (y ^ 2 * p * E * ((1 - fe k p) * fnu k y)))) /\
    nth 1 l 0 = 175426 / 10000 * 1000 ^ 5 / kpa k ^ 5 * ((ymax k - ymin k) / 2 * (w * (y ^ 2 * p * E * (fe k p * (1 - fnu k y))))).
Proof.
  intros k x w HY Hk y Hy E p. eexists. split; [reflexivity|]. cbn [nth]. unfold channel. destruct (Rlt_dec (ymin k) (ymax k)); [|lra]. rewrite !gaussian_eq, !rule_sum_cons. fold y.
  unfold rate1, rate2, rate_shape. rewrite qnp_is, me_is. fold E p. assert (~ E < 511 / 1000000 * kpa k) by (unfold E; lra). destruct (Rlt_dec _ _); [contradiction|].
  cbn zeta. fold p. unfold rate_normalization. rewrite MeV_is. unfold rule_sum. cbn [map fold_right]. split; field; lra.
Qed.
Print Assumptions C87_value.
Example C87_value_case : let k := mkKparts (fun _ => 1 / 2) (fun _ => 1 / 2) 0 2 3 in ymin k < ymax k /\ 0 < kpa k /\ 0 <= (ymax k - ymin k) / 2 * 0 + (ymax k + ymin k) / 2.
Proof. cbn. lra. Qed.

(* ---------- C95 ---------- *)
(* the balance condition, on the six rates alone *)
Definition unbalanced (n1 n2 n3 n4 n5 n6 : R) : Prop :=
  let forward := n1 + n3 + n5 in let back := n2 + n4 + n6 in
  (back = 0 /\ forward <> 0) \/ (back > 0 /\ (forward > 10 * back \/ 10 * forward < back)) \/ (back < 0 /\ (forward < 10 * back \/ 10 * forward > back)).
Theorem C95_freeze : forall s before pre n1 n2 n3 n4 n5 n6, rows s = before ++ [pre ++ [n1; n2; n3; n4; n5; n6]] ->
  (freeze s = true <-> unbalanced n1 n2 n3 n4 n5 n6).
Proof.
  intros s before pre n1 n2 n3 n4 n5 n6 E. unfold freeze. rewrite E, rev_app_distr. cbn [rev app]. rewrite app_length. cbn [length].
  replace (length pre + 6 - 6)%nat with (length pre) by lia. rewrite skipn_app, Nat.sub_diag, skipn_all. cbn [skipn app]. cbn zeta. unfold unbalanced.
  replace (evens [n1; n2; n3; n4; n5; n6]) with (n1 + n3 + n5) by (cbn; ring). replace (odds [n1; n2; n3; n4; n5; n6]) with (n2 + n4 + n6) by (cbn; ring).
  set (f := n1 + n3 + n5). set (b := n2 + n4 + n6). clearbody f b. unfold xdiv. destruct (Req_EM_T b 0) as [B|B].
  - destruct (Req_EM_T f 0) as [F|F].
    + split; [discriminate|]. intros [[_ H]|[[H _]|[H _]]]; [contradiction|lra|lra].
    + destruct (Rlt_dec 0 f); split; auto.
  - assert (Q : f = f / b * b) by (field; exact B). set (r := f / b) in *. clearbody r. destruct (Rlt_dec b 0) as [N|N].
    + assert (A1 : 10 < r <-> f < 10 * b) by (split; nra). assert (A2 : r < 1 / 10 <-> 10 * f > b) by (split; nra).
      destruct (Rlt_dec 10 r), (Rlt_dec r (1 / 10)); cbn [orb]; (split; [intros H|intros H; try reflexivity]); try discriminate; try (right; right; split; [lra|tauto]).
      destruct H as [[? _]|[[? _]|[_ [?|?]]]]; tauto || lra.
    + assert (P : 0 < b) by lra. assert (A1 : 10 < r <-> f > 10 * b) by (split; nra). assert (A2 : r < 1 / 10 <-> 10 * f < b) by (split; nra).
      destruct (Rlt_dec 10 r), (Rlt_dec r (1 / 10)); cbn [orb]; (split; [intros H|intros H; try reflexivity]); try discriminate; try (right; left; split; [lra|tauto]).
      destruct H as [[? _]|[[_ [?|?]]|[? _]]]; tauto || lra.
Qed.
Print Assumptions C95_freeze.
Theorem C95_below : forall s, below_BBN s = true <-> snT s <= 65 / 1000000.
Proof. intros s. unfold below_BBN, T_BBN. rewrite MeV_is. destruct (Rle_dec _ _); split; intros; try reflexivity; try discriminate; lra. Qed.
Print Assumptions C95_below.
(* the estimate itself: q = 1.293332 MeV, lifetime 885.7 s, 1 s = 10^22/6.582119 MeV^-1 *)
Theorem C95_estimate : forall ss m' nT nt dT dt d np Y, monitor_run read_intended ss (mkMon None None None) = Ok m' ->
  ndec m' = Some (nT, nt) -> deut m' = Some (dT, dt) -> est m' = Some (d, np, Y) ->
  d = dt - nt /\ np = exp (- (1293332 / 1000000000) / nT) * exp (- (dt - nt) / (8857 / 10 * (10 ^ 25 / (6582119 / 1000000)))) /\ Y * (1 + np) = 2 * np.
Proof.
  intros ss m' nT nt dT dt d np Y E H1 H2 H3.
  assert (HO : est_ok m') by (apply (run_est _ _ _ _ E); intros ? ? ? X; discriminate X).
  destruct (HO _ _ _ H3) as (nT' & nt' & dT' & dt' & A1 & A2 & -> & -> & ->). rewrite H1 in A1. rewrite H2 in A2. injection A1 as <- <-. injection A2 as <- <-.
  split; [reflexivity|]. split.
  - rewrite qnp_is. f_equal. f_equal. f_equal. unfold neutron_lifetime, second. rewrite MeV_is. replace (10 ^ 25) with (10 ^ 22 * 1000) by ring. set (t := 10 ^ 22). lra.
  - field. pose proof (exp_pos (- qnp / nT)). pose proof (exp_pos (- (dt - nt) / neutron_lifetime)). nra.
Qed.
Print Assumptions C95_estimate.
Example C95_freeze_case : unbalanced 100 1 0 0 0 0 /\ ~ unbalanced 2 1 0 0 0 0 /\ unbalanced 1 0 0 0 0 0.
Proof. unfold unbalanced. repeat split; lra. Qed.
