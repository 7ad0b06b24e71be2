(* C153, C158 and C160, continued: the kinds of failure of the routines of
   common/orthopoly.py, and the normalised Jacobi polynomials. *)
From Coq Require Import Reals Psatz.
From Coquelicot Require Import Coquelicot.
From Verif Require Import Base OrthoModel OrthoSpec OrthoProofs OrthoGaussProofs OrthoProps
  OrthoJacobiProofs OrthoIntegralProofs OrthoEvalProofs OrthoPolyProps.
Open Scope R_scope.
Local Notation length := List.length.

(* alpha and beta of different lengths are a ValueError of gauss, whatever the
   eigenvalue routine does *)
Theorem C153_shapes : forall eig alpha beta, length alpha <> length beta ->
  gauss eig alpha beta = Raise ValueError.
Proof.
  intros eig alpha beta H. unfold gauss, stacked.
  destruct (Nat.eqb_spec (length beta) (length alpha)); [congruence|reflexivity].
Qed.
Example C153_shapes_example : gauss (fun _ _ => Ok ([], [])) [0; 0] [2] = Raise ValueError.
Proof. apply C153_shapes. discriminate. Qed.

(* Exponents that make the weight non-integrable are refused with ValueError, at
   every order; the one-point rule is an IndexError unless the eigenvalue routine
   fails first. *)
Theorem C160_exponents : forall gamma power2 N a b, a <= -1 \/ b <= -1 ->
  rec_jacobi01 gamma power2 N a b = Raise ValueError.
Proof.
  intros gamma power2 N a b H. unfold rec_jacobi01.
  destruct (Rle_dec a (-1)); [reflexivity|]. destruct (Rle_dec b (-1)); [reflexivity|]. tauto.
Qed.
Theorem C160_one_point : forall eig gamma power2 a b xV, a + b + 2 <> 0 ->
  let nu := (b - a) / (a + b + 2) in
  let mu := power2 (a + b + 1) * gamma (a + 1) * gamma (b + 1) / gamma (a + b + 2) in
  eig [sqrt mu] [nu] = Ok xV ->
  rbind (rec_jacobi gamma power2 1 a b) (gauss_of eig)
  = Raise (if Rlt_dec mu 0 then ValueError else IndexError).
Proof.
  intros eig gamma power2 a b xV H nu mu He. unfold rec_jacobi.
  destruct (Req_EM_T (a + b + 2) 0) as [|_]; [contradiction|].
  cbn [Z.eqb Pos.eqb rbind gauss_of]. fold mu nu. unfold stacked, roots. cbn [length Nat.eqb forallb].
  destruct (Rlt_dec mu 0); [reflexivity|]. cbn [andb rbind map]. rewrite He. now destruct xV.
Qed.
Example C160_exponents_example :
  rec_jacobi01 gamma0 (Rpower 2) 3 0 (-1) = Raise ValueError
  /\ rbind (rec_jacobi gamma0 (Rpower 2) 1 0 0) (gauss_of (fun _ d => Ok (d, [[1]]))) = Raise IndexError.
Proof.
  split; [apply C160_exponents; lra|].
  rewrite (C160_one_point _ _ _ _ _ ([(0 - 0) / (0 + 0 + 2)], [[1]])); [|intros E; lra|reflexivity].
  replace (Rpower 2 (0 + 0 + 1)) with 2 by (replace (0 + 0 + 1) with (INR 1) by (simpl; ring); rewrite power2_0_ok; ring).
  replace (gamma0 (0 + 1)) with 1 by (replace (0 + 1) with (INR 0 + 1) by (simpl; ring); rewrite gamma0_ok; reflexivity).
  replace (gamma0 (0 + 0 + 2)) with 1 by (replace (0 + 0 + 2) with (INR 1 + 1) by (simpl; ring); rewrite gamma0_ok; reflexivity).
  destruct (Rlt_dec _ 0) as [l|]; [lra|reflexivity].
Qed.

(* ---- the squared norms ---- *)
Lemma monic_b0 a b b' k x : (forall j, b (S j) = b' (S j)) -> monic a b k x = monic a b' k x.
Proof.
  intros H. induction k as [k IH] using lt_wf_ind. destruct k as [|[|k]].
  - now rewrite !monic_0.
  - now rewrite !monic_1.
  - rewrite !monic_SS, H, !IH by lia. reflexivity.
Qed.
(* pnorm with natural exponents *)
Definition pn (a b k : nat) : R :=
  2 ^ (a + b + 1) * INR (fact (k + a)) * INR (fact (k + b))
  / ((2 * INR k + INR a + INR b + 1) * (INR (fact k) * INR (fact (k + a + b)))).
Lemma pnorm_pn gamma power2 a b k : gamma_ok gamma -> power2_ok power2 ->
  pnorm gamma power2 (INR a) (INR b) k = pn a b k.
Proof.
  intros HG HP. unfold pnorm, pn. rewrite <- !plus_INR, !HG.
  replace (INR (a + b) + 1) with (INR (a + b + 1)) by (rewrite !plus_INR; simpl; ring).
  rewrite HP. reflexivity.
Qed.
Lemma pn_pos a b k : 0 < pn a b k.
Proof.
  unfold pn. pose proof (pos_INR a). pose proof (pos_INR b). pose proof (pos_INR k).
  apply Rdiv_lt_0_compat; repeat apply Rmult_lt_0_compat; try apply INR_fact_lt_0; try lra. apply pow_lt. lra.
Qed.
Lemma fact_S_INR n : INR (fact (S n)) = (INR n + 1) * INR (fact n).
Proof. change (fact (S n)) with (S n * fact n)%nat. now rewrite mult_INR, S_INR. Qed.
Lemma pn_S a b k : pn a b (S k)
  = pn a b k * ((INR k + INR a + 1) * (INR k + INR b + 1) * (2 * INR k + INR a + INR b + 1))
    / ((2 * INR k + INR a + INR b + 3) * ((INR k + 1) * (INR k + INR a + INR b + 1))).
Proof.
  unfold pn. cbn [Nat.add]. rewrite !fact_S_INR, S_INR, !plus_INR.
  pose proof (pos_INR a). pose proof (pos_INR b). pose proof (pos_INR k).
  pose proof (INR_fact_neq_0 k). pose proof (INR_fact_neq_0 (k + a + b)).
  generalize (2 ^ (a + b + 1)). intros q. field. repeat split; try assumption; lra.
Qed.
Lemma norm_pn a b k :
  lead (INR a) (INR b) k ^ 2 * prodn (jbe (jint a b (fun _ => 1)) (INR a) (INR b)) k = pn a b k.
Proof.
  pose proof (pos_INR a). pose proof (pos_INR b).
  induction k as [|k IH].
  - cbn [prodn lead]. unfold jbe. rewrite total. unfold pn. cbn [Nat.add fact INR].
    replace (a + b + 1)%nat with (S (a + b)) by lia. rewrite fact_S_INR, plus_INR.
    pose proof (INR_fact_neq_0 (a + b)). field. repeat split; try assumption; lra.
  - rewrite pn_S, <- IH. cbn [prodn]. destruct k as [|k].
    + cbn [prodn lead]. unfold jbe. simpl INR. field. lra.
    + rewrite lead_SS. unfold jbe at 2. pose proof (pos_INR k). rewrite !S_INR.
      generalize (lead (INR a) (INR b) (S k)) (prodn (jbe (jint a b (fun _ => 1)) (INR a) (INR b)) (S k)).
      intros p q. field. lra.
Qed.

Lemma unit_norm p q s n : 0 < s -> s * s = n -> p ^ 2 * q = n -> p / s * (p / s) * q = 1.
Proof. intros Hs E1 E2. transitivity (p ^ 2 * q / (s * s)); [field; lra|]. rewrite E2, <- E1. field. lra. Qed.

(* With NOPT = 2 the returned polynomials are orthonormal for the weight
   (1-x)^a (1+x)^b, at every order and all natural exponents. *)
Theorem C158_orthonormal : forall gamma power2 N a b,
  gamma_ok gamma -> power2_ok power2 ->
  exists rows : R -> list R,
    (forall x, jacobi gamma power2 Py2 N (INR a) (INR b) [x] 2 = Ok [rows x])
    /\ forall k l, (k <= N)%nat -> (l <= N)%nat ->
       is_RInt (fun x => el (rows x) k * el (rows x) l * ((1 - x) ^ a * (1 + x) ^ b)) (-1) 1
         (if Nat.eqb k l then 1 else 0).
Proof.
  intros gamma power2 N a b HG HP.
  pose proof (pos_INR a) as Pa. pose proof (pos_INR b) as Pb.
  exists (fun x => map (fun kp => snd kp * (1 / sqrt (pnorm gamma power2 (INR a) (INR b) (fst kp))))
                (combine (seq 0 (S N)) (jacobi_row N (INR a) (INR b) x))).
  split.
  { intros x. unfold jacobi. destruct (1 <? Z.of_nat N)%Z; reflexivity. }
  set (mu := jint a b (fun _ => 1)).
  set (al := jal (INR a) (INR b)). set (be := jbe mu (INR a) (INR b)).
  assert (El : forall x k, (k <= N)%nat ->
    el (map (fun kp => snd kp * (1 / sqrt (pnorm gamma power2 (INR a) (INR b) (fst kp))))
                (combine (seq 0 (S N)) (jacobi_row N (INR a) (INR b) x))) k
    = lead (INR a) (INR b) k / sqrt (pn a b k) * monic al be k x).
  { intros x k Hk.
    rewrite (el_indexed (fun k p => p * (1 / sqrt (pnorm gamma power2 (INR a) (INR b) k)))).
    - rewrite jacobi_row_el by (try lra; lia). rewrite pnorm_pn by assumption. unfold jpoly.
      rewrite (monic_b0 _ _ be) by reflexivity. fold al. unfold Rdiv. ring.
    - apply jacobi_row_length.
    - lia. }
  intros k l Hk Hl.
  set (c := lead (INR a) (INR b) k / sqrt (pn a b k) * (lead (INR a) (INR b) l / sqrt (pn a b l))).
  assert (Pm : polynomial (fun x => monic al be k x * monic al be l x))
    by (apply polynomial_mult; apply polynomial_monic).
  apply (is_RInt_ext (fun x => scal c (monic al be k x * monic al be l x * jweight a b x))).
  { intros x _. rewrite !El by assumption. unfold c, jweight, scal. simpl. unfold mult. simpl. ring. }
  assert (V : c * jint a b (fun x => monic al be k x * monic al be l x) = if Nat.eqb k l then 1 else 0).
  { destruct (jacobi_coefficients a b (S (k + l))) as (H0 & HO).
    destruct (Nat.eqb_spec k l) as [->|D].
    - rewrite (norms _ _ _ (S (l + l)) (jint_functional a b) (conj H0 HO)) by lia.
      unfold c. pose proof (norm_pn a b l) as E. fold mu be in E.
      pose proof (pn_pos a b l) as PP. pose proof (sqrt_lt_R0 _ PP).
      pose proof (sqrt_sqrt (pn a b l) ltac:(lra)) as SS.
      now apply (unit_norm _ _ _ (pn a b l)).
    - destruct (Nat.lt_ge_cases k l).
      + rewrite HO by lia. ring.
      + rewrite (proj1 (jint_functional a b) _ (fun x => monic al be l x * monic al be k x)) by (intros; ring).
        rewrite HO by lia. ring. }
  pose proof (is_RInt_scal _ _ _ c _ (RInt_correct (V := R_CompleteNormedModule) _ _ _ (ex_jint a b _ Pm))) as I.
  refine (eq_rect _ (fun v => is_RInt _ _ _ v) I _ V).
Qed.

Example C158_orthonormal_example : exists rows : R -> list R,
  (forall x, jacobi gamma0 (Rpower 2) Py2 2 1 0 [x] 2 = Ok [rows x])
  /\ is_RInt (fun x => el (rows x) 2 * el (rows x) 2 * ((1 - x) ^ 1 * (1 + x) ^ 0)) (-1) 1 1
  /\ is_RInt (fun x => el (rows x) 2 * el (rows x) 1 * ((1 - x) ^ 1 * (1 + x) ^ 0)) (-1) 1 0.
Proof.
  destruct (C158_orthonormal gamma0 (Rpower 2) 2 1 0 gamma0_ok power2_0_ok) as (rows & E & H).
  exists rows. split; [exact E|]. split; [apply (H 2%nat 2%nat); lia|apply (H 2%nat 1%nat); lia].
Qed.
Print Assumptions C153_shapes.
Print Assumptions C160_exponents.
Print Assumptions C160_one_point.
Print Assumptions C158_orthonormal.

(* fewer beta than alpha: an IndexError, unless there is one alpha only, whose
   beta is not read; no alpha at all is an IndexError too *)
Theorem C158_short : forall alpha beta xs, (length beta < length alpha)%nat ->
  (2 <= length alpha -> polyval Py2 alpha beta xs = Raise IndexError)%nat /\
  (forall a, alpha = [a] -> polyval Py2 alpha beta xs = Ok (map (fun x => [1; x - a]) xs)).
Proof.
  intros alpha beta xs H. assert (L : Nat.ltb (length beta) (length alpha) = true) by (now apply Nat.ltb_lt). split.
  - intros H2. destruct alpha as [|a r]; [cbn in H2; lia|]. unfold polyval. cbn [py2_builtin rbind]. rewrite L.
    assert (Nat.ltb 1 (length (a :: r)) = true) as -> by (now apply Nat.ltb_lt). reflexivity.
  - intros a ->. unfold polyval. cbn [py2_builtin rbind]. rewrite L. cbn. f_equal. apply map_ext. intros x. now rewrite Rmult_1_r.
Qed.
Print Assumptions C158_short.
Theorem C158_no_alpha : forall v beta xs, polyval v [] beta xs = Raise IndexError.
Proof. reflexivity. Qed.
Print Assumptions C158_no_alpha.
Example C158_short_example : polyval Py2 [0; 0] [1] [1] = Raise IndexError /\ polyval Py2 [2] [] [1] = Ok [[1; 1 - 2]].
Proof. split; [reflexivity|]. rewrite (proj2 (C158_short [2] [] [1] ltac:(cbn; lia)) 2 eq_refl). reflexivity. Qed.
