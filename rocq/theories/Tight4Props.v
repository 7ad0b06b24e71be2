(* C137, continued: what the four-particle integral computes is linear in the
   squared amplitudes, and the Fermi constant that the amplitudes are divided by
   before the compiled code sees them is the one the result is multiplied by. *)
From Coq Require Import Reals Lra.
From Coquelicot Require Import Coquelicot.
From Verif Require Import Base FunctionalModel GridsModel DsModel BoundsModel Integrate3Model Integrate4Model ScaleProofs ScaleProps.
Open Scope R_scope.

(* every squared amplitude multiplied by c *)
Definition times (c : R) (M : matrix_element) : matrix_element :=
  mkM (order M) (c * K1 M) (c * K2 M) (c * K M).

Lemma if_times c (u v w : R) : c <> 0 -> v = w -> (if Req_EM_T (c * u) 0 then 0 else v) = (if Req_EM_T u 0 then 0 else w).
Proof.
  intros Hc ->. destruct (Req_EM_T u 0) as [->|H], (Req_EM_T (c * _) 0) as [E|E]; try reflexivity.
  - exfalso. apply E. ring.
  - exfalso. apply Rmult_integral in E. tauto.
Qed.
Lemma Dfun_times c p E m a b o sides : c <> 0 -> Dfun p E m (c * a) (c * b) o sides = c * Dfun p E m a b o sides.
Proof.
  intros Hc. destruct o as [[[i j] k] l]. unfold Dfun. cbv zeta.
  erewrite (if_times c a) by (auto; reflexivity). erewrite (if_times c b) by (auto; reflexivity).
  destruct (Req_EM_T a 0), (Req_EM_T b 0); ring.
Qed.
Lemma Db_times c p E m a b o sides : c <> 0 -> Db p E m (c * a) (c * b) o sides = c * Db p E m a b o sides.
Proof.
  intros Hc. destruct o as [[[i j] k] l]. unfold Db. cbv zeta.
  erewrite (if_times c a) by (auto; reflexivity). erewrite (if_times c b) by (auto; reflexivity).
  destruct (Req_EM_T a 0), (Req_EM_T b 0), (i * j =? 0)%nat, (k * l =? 0)%nat; ring.
Qed.
Lemma fold_times (f : matrix_element -> R) c l z : (forall M, f (times c M) = c * f M) ->
  fold_left (fun ds M => ds + f M) (map (times c) l) (c * z) = c * fold_left (fun ds M => ds + f M) l z.
Proof.
  intros H. revert z. induction l as [|M l IH]; intros z; cbn; [reflexivity|].
  rewrite H, <- Rmult_plus_distr_l. apply IH.
Qed.
Lemma kernel_times c p E m sides M Ms : c <> 0 ->
  kernel p E m sides (times c M) (map (times c) Ms) = c * kernel p E m sides M Ms.
Proof.
  intros Hc. unfold kernel.
  change (times c M :: map (times c) Ms) with (map (times c) (M :: Ms)).
  pose proof (fold_times (fun M => Db p E m (K1 M) (K2 M) (order M) sides) c (M :: Ms) 0
    (fun M => Db_times c p E m (K1 M) (K2 M) (order M) sides Hc)) as A.
  pose proof (fold_times (fun M => Dfun p E m (K1 M) (K2 M) (order M) sides) c (M :: Ms) 0
    (fun M => Dfun_times c p E m (K1 M) (K2 M) (order M) sides Hc)) as B.
  replace (c * 0) with 0 in A, B by ring. 
  replace (K (times c M)) with (c * K M) by reflexivity.
  destruct (Req_EM_T (K M) 0) as [HK|HK], (Req_EM_T (c * K M) 0) as [HK'|HK'].
  - destruct (Req_EM_T (p 0%nat) 0); [exact A|]. rewrite B. unfold Rdiv. ring.
  - exfalso. apply HK'. rewrite HK. ring.
  - exfalso. apply Rmult_integral in HK'. tauto.
  - ring.
Qed.
Lemma integrand4_times c rs M Ms k p0 p1 p2 v : c <> 0 ->
  integrand4 rs M Ms k p0 p1 p2 = Ok v ->
  integrand4 rs (times c M) (map (times c) Ms) k p0 p1 p2 = Ok (c * v).
Proof.
  intros Hc. unfold integrand4. destruct (momenta4 rs p0 p1 p2) as [[p E]|].
  2:{ intros H. injection H as <-. now rewrite Rmult_0_r. }
  cbv zeta. destruct (in_bounds4 _ _ _); [|intros H; injection H as <-; now rewrite Rmult_0_r].
  set (t := velocity _ _ * velocity _ _).
  destruct (Req_EM_T t 0); [intros H; injection H as <-; now rewrite Rmult_0_r|].
  rewrite kernel_times by assumption. set (q := kernel _ _ _ _ _ _).
  destruct (Req_EM_T (t * q) 0) as [Z|Z], (Req_EM_T (t * (c * q)) 0) as [Z'|Z'].
  - intros H; injection H as <-; now rewrite Rmult_0_r.
  - exfalso. apply Z'. replace (t * (c * q)) with (c * (t * q)) by ring. rewrite Z. ring.
  - exfalso. replace (t * (c * q)) with (c * (t * q)) in Z' by ring. apply Rmult_integral in Z'. tauto.
  - destruct (occupations _ _ _ _) as [f|]; [|discriminate]. cbn. destruct (functional _ _ _) as [F|]; [|discriminate]. cbn.
    intros H; injection H as <-. f_equal. ring.
Qed.
Lemma inner_times c rs M Ms k n2 x2 x3 p0 p1 J : c <> 0 ->
  inner_is rs M Ms k n2 x2 x3 p0 p1 J -> inner_is rs (times c M) (map (times c) Ms) k n2 x2 x3 p0 p1 (c * J).
Proof.
  intros Hc. unfold inner_is. destruct (p2_limits _ _ _ _ _ _) as [[[lo|] [hi|]]|]; try tauto.
  - intros (v & Hv & HI). exists (fun p => c * v p). split.
    + intros p Hp. apply integrand4_times; auto.
    + exact (is_RInt_scal v lo hi c J HI).
  - intros ->. ring.
Qed.
Lemma point4_times c rs M Ms k st n2 x2 x3 p0 I : c <> 0 ->
  point4_is rs M Ms k st n2 x2 x3 p0 I -> point4_is rs (times c M) (map (times c) Ms) k st n2 x2 x3 p0 (c * I).
Proof.
  intros Hc. unfold point4_is. destruct (snd _) as [[[lo|] [hi|]]|]; try tauto.
  - intros (v & Hv & HI). exists (fun p => c * v p). split.
    + intros p Hp. apply inner_times; auto.
    + exact (is_RInt_scal v lo hi c I HI).
  - intros ->. ring.
Qed.
Lemma unit4_nz G : G <> 0 -> unit4 G <> 0.
Proof. intros. apply Rmult_integral_contrapositive_currified; [lra|now apply pow_nonzero]. Qed.

(* Scaling every squared amplitude by the same non-zero factor scales the result *)
Theorem C137_linear : forall c G_F a aT H ss M Ms k min_1 max_1 min_2 max_2 max_3 y x, c <> 0 ->
  contribution4 G_F a aT H ss M Ms k min_1 max_1 min_2 max_2 max_3 y x ->
  contribution4 G_F a aT H ss (times c M) (map (times c) Ms) k min_1 max_1 min_2 max_2 max_3 y (c * x).
Proof.
  intros c G_F a aT H ss M Ms k n1 x1 n2 x2 x3 y x Hc (I & HI & ->).
  exists (c * I). split; [|ring].
  assert (E : forall M, compiled_M G_F (times c M) = times c (compiled_M G_F M)).
  { intros [o k1 k2 kk]. unfold compiled_M, times. cbn. f_equal; unfold Rdiv; ring. }
  rewrite E, map_map. rewrite (map_ext _ _ E), <- map_map. now apply point4_times.
Qed.

(* The result does not depend on the value of the Fermi constant that is first
   divided out of the amplitudes and then put back: whatever dependence there is
   comes with the amplitudes *)
Theorem C137_coupling : forall G1 G2 a aT H ss M Ms k min_1 max_1 min_2 max_2 max_3 y x, G1 <> 0 -> G2 <> 0 ->
  (contribution4 G1 a aT H ss M Ms k min_1 max_1 min_2 max_2 max_3 y x <->
   contribution4 G2 a aT H ss M Ms k min_1 max_1 min_2 max_2 max_3 y x).
Proof.
  assert (G : forall G1 G2 a aT H ss M Ms k min_1 max_1 min_2 max_2 max_3 y x, G1 <> 0 -> G2 <> 0 ->
   contribution4 G1 a aT H ss M Ms k min_1 max_1 min_2 max_2 max_3 y x ->
   contribution4 G2 a aT H ss M Ms k min_1 max_1 min_2 max_2 max_3 y x).
  { intros G1 G2 a aT H ss M Ms k n1 x1 n2 x2 x3 y x H1 H2 (I & HI & ->).
    apply unit4_nz in H1, H2. set (c := unit4 G1 / unit4 G2).
    assert (Hc : c <> 0) by (apply Rmult_integral_contrapositive_currified; [assumption|now apply Rinv_neq_0_compat]).
    assert (E : forall M, compiled_M G2 M = times c (compiled_M G1 M)).
    { intros [o k1 k2 kk]. unfold compiled_M, times, c. cbn. f_equal; field; auto. }
    exists (c * I). split.
    - rewrite E, (map_ext _ _ E), <- map_map. now apply point4_times.
    - unfold constant4. replace (unit4 G1) with (c * unit4 G2) by (unfold c; field; assumption). unfold Rdiv. ring. }
  intros. split; apply G; assumption.
Qed.

(* the decay of ScaleProps with all amplitudes doubled and another Fermi constant *)
Example C137_coupling_example :
  contribution4 2 1 1 1 ex_species (times 2 ex_MK) [] Ff_vacuum 0 10 0 10 10 0 (2 * - (1 ^ 3 / (512 * PI ^ 3))).
Proof.
  apply (C137_coupling 1); try lra. apply (C137_linear 2 1 1 1 1 ex_species ex_MK []); [lra|]. apply ex_contribution_K; lra.
Qed.
Print Assumptions C137_linear.
Print Assumptions C137_coupling.
