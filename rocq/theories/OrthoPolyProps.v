(* C157-C160: the Jacobi coefficients and polynomials of common/orthopoly.py. *)
From Coq Require Import Reals Psatz.
From Coquelicot Require Import Coquelicot.
From Verif Require Import Base OrthoModel OrthoSpec OrthoProofs OrthoGaussProofs OrthoProps
  OrthoJacobiProofs OrthoIntegralProofs OrthoEvalProofs.
Open Scope R_scope.
Local Notation length := List.length.

(* scipy.special.gamma and 2**n at the integers. *)
Definition gamma_ok (gamma : R -> R) : Prop := forall n, gamma (INR n + 1) = INR (fact n).
Definition power2_ok (power2 : R -> R) : Prop := forall n, power2 (INR n) = 2 ^ n.

Definition gamma0 (x : R) : R := INR (fact (Z.to_nat (Int_part x - 1))).
Lemma gamma0_ok : gamma_ok gamma0.
Proof.
  intros n. unfold gamma0. rewrite <- S_INR, Int_part_INR. do 2 f_equal. lia.
Qed.
Lemma power2_0_ok : power2_ok (Rpower 2).
Proof. intros n. apply Rpower_pow. lra. Qed.

(* ================================================================= C157 *)
(* gauss( *rec_jacobi(N,a,b)) integrates f(x) (1-x)^a (1+x)^b over [-1,1] exactly
   for every polynomial f of degree less than 2N. *)
Lemma jmu_total gamma power2 a b : gamma_ok gamma -> power2_ok power2 ->
  jmu gamma power2 (INR a) (INR b) = jint a b (fun _ => 1).
Proof.
  intros HG HP. rewrite total. unfold jmu.
  replace (INR a + INR b + 1) with (INR (a + b + 1)) by (rewrite !plus_INR; simpl; ring).
  replace (INR a + INR b + 2) with (INR (a + b + 1) + 1) by (rewrite !plus_INR; simpl; ring).
  rewrite HP, !HG. reflexivity.
Qed.
Lemma total_pos a b : 0 < jint a b (fun _ => 1).
Proof.
  rewrite total. apply Rdiv_lt_0_compat; [|apply INR_fact_lt_0].
  repeat apply Rmult_lt_0_compat; try apply INR_fact_lt_0. apply pow_lt. lra.
Qed.

Theorem C157_gauss :
  forall eig gamma power2 a b N x w,
  eig_sound eig -> gamma_ok gamma -> power2_ok power2 -> (2 <= N)%nat ->
  rbind (rec_jacobi gamma power2 (Z.of_nat N) (INR a) (INR b)) (gauss_of eig) = Ok (x, w) ->
  length x = N /\ length w = N /\
  forall f, poly_lt (2 * N) f ->
    rule x w f = RInt (fun y => f y * ((1 - y) ^ a * (1 + y) ^ b)) (-1) 1.
Proof.
  intros eig gamma power2 a b N x w HE HG HP HN H.
  pose proof (pos_INR a). pose proof (pos_INR b).
  destruct (rec_jacobi_ok gamma power2 N (INR a) (INR b) ltac:(lra) ltac:(lra) HN)
    as (al & be & E & La & Lb & Ea & Eb).
  rewrite E in H. simpl in H. rewrite (jmu_total gamma power2 a b HG HP) in Eb.
  destruct (C153_exact eig al be x w (jint a b) HE H) as (Lx & Lw & X).
  - intros k Hk. rewrite Eb by lia. apply jbe_pos; [lra|lra|apply total_pos].
  - apply jint_functional.
  - rewrite La. apply (coefficients_ext _ _ _ _ _ _ (jint_functional a b) Ea Eb ltac:(lia)).
    apply jacobi_coefficients.
  - rewrite La in *. split; [exact Lx|]. split; [exact Lw|]. intros f Hf. now apply X.
Qed.
Print Assumptions C157_gauss.

(* The same on [0,1] with rec_jacobi01 and the weight (1-t)^a t^b. *)
Theorem C157_gauss01 :
  forall eig gamma power2 a b N x w,
  eig_sound eig -> gamma_ok gamma -> power2_ok power2 -> (2 <= N)%nat ->
  rbind (rec_jacobi01 gamma power2 (Z.of_nat N) (INR a) (INR b)) (gauss_of eig) = Ok (x, w) ->
  length x = N /\ length w = N /\
  forall f, poly_lt (2 * N) f ->
    rule x w f = RInt (fun t => f t * ((1 - t) ^ a * t ^ b)) 0 1.
Proof.
  intros eig gamma power2 a b N x w HE HG HP HN H.
  pose proof (pos_INR a). pose proof (pos_INR b).
  destruct (rec_jacobi_ok gamma power2 N (INR a) (INR b) ltac:(lra) ltac:(lra) HN)
    as (al & be & E & La & Lb & Ea & Eb).
  unfold rec_jacobi01 in H.
  destruct (Rle_dec (INR a) (-1)); [lra|]. destruct (Rle_dec (INR b) (-1)); [lra|].
  destruct (Z.ltb_spec (Z.of_nat N) 1); [lia|]. rewrite E in H. simpl in H.
  rewrite (jmu_total gamma power2 a b HG HP) in Eb.
  destruct be as [|b0 br]; [simpl in Lb; lia|]. simpl in H.
  assert (E0 : b0 = jint a b (fun _ => 1)) by (apply (Eb O); lia).
  replace (INR a + INR b + 1) with (INR (a + b + 1)) in H by (rewrite !plus_INR; simpl; ring).
  rewrite HP in H.
  set (al' := map (fun c => (1 + c) / 2) al) in *.
  set (be' := b0 / 2 ^ (a + b + 1) :: map (fun d => d / 4) br) in *.
  assert (Ea' : forall k, (k < N)%nat -> el al' k = (1 + jal (INR a) (INR b) k) / 2).
  { intros k Hk. unfold al'. rewrite (el_map (fun c => (1 + c) / 2)) by lia. now rewrite Ea. }
  assert (Eb' : forall k, (k < N)%nat -> el be' k
     = match k with O => jint a b (fun _ => 1) / 2 ^ (a + b + 1)
       | _ => jbe (jint a b (fun _ => 1)) (INR a) (INR b) k / 4 end).
  { intros [|k] Hk; [unfold be', el; simpl; now rewrite E0|].
    rewrite <- Eb by lia. unfold be', el. simpl.
    apply (el_map (fun d => d / 4) br). simpl in Lb. lia. }
  assert (La' : length al' = N) by (unfold al'; now rewrite map_length).
  destruct (C153_exact eig al' be' x w (jint01 a b) HE H) as (Lx & Lw & X).
  - intros k Hk. rewrite Eb' by lia. destruct k as [|k]; [lia|].
    pose proof (jbe_pos (jint a b (fun _ => 1)) (INR a) (INR b) ltac:(lra) ltac:(lra) (total_pos a b) (S k)). lra.
  - apply jint01_functional.
  - rewrite La'. apply (coefficients_ext _ _ _ _ _ _ (jint01_functional a b) Ea' Eb' ltac:(lia)).
    apply (coefficients01 a b N _ _ (jint a b (fun _ => 1))); try reflexivity.
    intros [|k] Hk; [lia|reflexivity].
  - rewrite La' in *. split; [exact Lx|]. split; [exact Lw|]. intros f Hf. now apply X.
Qed.
Print Assumptions C157_gauss01.

(* Two-point Gauss-Legendre from the library's own coefficients. *)
Example C157_ex : exists x w,
  rbind (rec_jacobi gamma0 (Rpower 2) 2 (INR 0) (INR 0)) (gauss_of two_eig) = Ok (x, w)
  /\ forall f, poly_lt 4 f -> rule x w f = RInt (fun y => f y * ((1 - y) ^ 0 * (1 + y) ^ 0)) (-1) 1.
Proof.
  assert (E : exists x w,
    rbind (rec_jacobi gamma0 (Rpower 2) 2 (INR 0) (INR 0)) (gauss_of two_eig) = Ok (x, w)).
  { unfold rec_jacobi. simpl INR.
    destruct (Req_EM_T (0 + 0 + 2) 0); [lra|]. cbn [Z.eqb Pos.eqb].
    destruct (Req_EM_T ((0 + 0 + 2) ^ 2 * (0 + 0 + 3)) 0); [lra|]. simpl rbind.
    unfold gauss, stacked, roots. simpl.
    assert (M : Rpower 2 (0 + 0 + 1) * gamma0 (0 + 1) * gamma0 (0 + 1) / gamma0 (0 + 0 + 2) = 2).
    { replace (0 + 0 + 1) with (INR 1) by (simpl; ring). rewrite power2_0_ok.
      replace (0 + 1) with (INR 0 + 1) by (simpl; ring). rewrite gamma0_ok.
      replace (0 + 0 + 2) with (INR 1 + 1) by (simpl; ring). rewrite gamma0_ok. simpl. field. }
    rewrite M. destruct (Rlt_dec 2 0); [lra|].
    destruct (Rlt_dec _ 0) as [N|_].
    { exfalso. replace (4 * (0 + 1) * (0 + 1) / ((0 + 0 + 2) * ((0 + 0 + 2) * 1) * (0 + 0 + 3)))
        with (1 / 3) in N by field. lra. }
    simpl. unfold two_eig.
    replace ((0 - 0) / (0 + 0 + 2)) with 0 by field. destruct (Req_EM_T 0 0); [|lra].
    destruct (Req_EM_T _ 0) as [|N]; [|exfalso; apply N; field]. simpl. eauto. }
  destruct E as (x & w & E). exists x, w. split; [exact E|].
  apply (C157_gauss two_eig gamma0 (Rpower 2) 0 0 2 x w two_eig_sound gamma0_ok power2_0_ok (le_n 2) E).
Qed.

(* ================================================================= C158 *)
(* On the supported interpreter (Python 3) the functions that use xrange or
   reduce do not run: rec_jaclog never returns. *)
Theorem C158_refuted :
  ~ (forall gamma power2 entry N a, (1 <= N)%Z -> -1 < a ->
       exists r, rec_jaclog gamma power2 Py3 entry N a = Ok r)
  /\ ~ (forall alpha beta xs, alpha <> [] -> length beta = length alpha ->
       exists r, polyval Py3 alpha beta xs = Ok r).
Proof.
  split; intros H.
  - destruct (H gamma0 (Rpower 2) (fun _ _ => 0) 1%Z 1 ltac:(lia) ltac:(lra)) as (r & E).
    unfold rec_jaclog, rec_jacobi01 in E.
    destruct (Rle_dec 0 (-1)); [lra|]. cbn [Z.mul Z.ltb Z.compare Pos.compare Pos.compare_cont Pos.mul] in E.
    destruct (rec_jacobi_ok gamma0 (Rpower 2) 2 0 0 ltac:(lra) ltac:(lra) (le_n 2))
      as (al & be & E2 & _ & Lb & _). change (Z.of_nat 2) with 2%Z in E2. rewrite E2 in E. simpl in E.
    destruct be; [discriminate|]. simpl in E. unfold mm_log in E.
    destruct (Rle_dec 1 (-1)); [lra|]. discriminate.
  - destruct (H [0] [1] [0] ltac:(discriminate) eq_refl) as (r & E). discriminate.
Qed.
Print Assumptions C158_refuted.

Theorem C158_python3 :
  (forall alpha beta xs, alpha <> [] -> polyval Py3 alpha beta xs = Raise NameError)
  /\ (forall gamma power2 N a b xs NOPT,
        (2 <= N)%nat -> jacobi gamma power2 Py3 N a b xs NOPT = Raise NameError)
  /\ (forall gamma power2 N a b xs NOPT,
        (N <= 1)%nat -> jacobi gamma power2 Py3 N a b xs NOPT = jacobi gamma power2 Py2 N a b xs NOPT)
  /\ (forall gamma power2 N a b xs NOPT,
        (3 <= N)%nat -> jacobiD gamma power2 Py3 N a b xs NOPT = Raise NameError)
  /\ (forall entry N a, (2 <= N)%nat -> -1 < a -> mm_log Py3 entry N a = Raise NameError)
  /\ (forall gamma power2 entry N a,
        (1 <= N)%Z -> -1 < a -> rec_jaclog gamma power2 Py3 entry N a = Raise NameError).
Proof.
  split; [|split; [|split; [|split; [|split]]]].
  - intros [|a0 ar] beta xs H; [congruence|reflexivity].
  - intros gamma power2 N a b xs NOPT H. unfold jacobi.
    rewrite (proj2 (Z.ltb_lt 1 (Z.of_nat N))) by lia. reflexivity.
  - intros gamma power2 N a b xs NOPT H. unfold jacobi.
    destruct (Z.ltb_spec 1 (Z.of_nat N)); [lia|]. reflexivity.
  - intros gamma power2 [|N] a b xs NOPT H; [lia|]. unfold jacobiD, jacobi.
    rewrite (proj2 (Z.ltb_lt 1 (Z.of_nat N))) by lia. reflexivity.
  - intros entry N a H Ha. unfold mm_log. destruct (Rle_dec a (-1)); [lra|].
    rewrite (proj2 (Nat.ltb_lt 1 N)) by lia. reflexivity.
  - intros gamma power2 entry N a HN Ha. unfold rec_jaclog, rec_jacobi01.
    destruct (Rle_dec 0 (-1)); [lra|]. destruct (Z.ltb_spec (2 * N) 1); [lia|].
    destruct (rec_jacobi_ok gamma power2 (Z.to_nat (2 * N)) 0 0 ltac:(lra) ltac:(lra) ltac:(lia))
      as (al & be & E2 & _ & Lb & _). rewrite Z2Nat.id in E2 by lia. rewrite E2. cbn [rbind].
    destruct be as [|b0 br]; [cbn [length] in Lb; lia|].
    unfold mm_log. destruct (Rle_dec a (-1)); [lra|].
    rewrite (proj2 (Nat.ltb_lt 1 (Z.to_nat (2 * N)))) by lia. reflexivity.
Qed.
Print Assumptions C158_python3.

(* Where the built-ins exist, polyval gives the monic polynomials of the
   coefficients, and jacobi positive multiples of those of rec_jacobi's. *)
Theorem C158_values :
  (forall alpha beta xs, alpha <> [] -> (length alpha <= length beta)%nat ->
     exists P, polyval Py2 alpha beta xs = Ok P /\ length P = length xs
       /\ forall i, (i < length xs)%nat ->
          length (nth i P []) = S (length alpha)
          /\ forall k, (k <= length alpha)%nat ->
             el (nth i P []) k = monic (el alpha) (el beta) k (el xs i))
  /\ (forall gamma power2 N a b xs, -1 < a -> -1 < b -> (2 <= N)%nat ->
     exists P alpha beta c,
       jacobi gamma power2 Py2 N a b xs 1 = Ok P
       /\ rec_jacobi gamma power2 (Z.of_nat N) a b = Ok (Arrays alpha beta)
       /\ length P = length xs
       /\ (forall k, 0 < c k)
       /\ forall i k, (i < length xs)%nat -> (k <= N)%nat ->
          el (nth i P []) k = c k * monic (el alpha) (el beta) k (el xs i)).
Proof.
  split.
  - intros [|a0 ar] beta xs H HL; [congruence|]. simpl in HL.
    destruct beta as [|b0 br]; [simpl in HL; lia|]. simpl in HL.
    unfold polyval. simpl py2_builtin. cbn [rbind length].
    destruct (Nat.ltb_spec (S (length br)) (S (length ar))); [lia|].
    set (row := fun x : R => _). eexists. split; [reflexivity|]. split; [now rewrite map_length|].
    intros i Hi. rewrite (nth_indep _ [] (row 0)) by (now rewrite map_length).
    rewrite map_nth. fold (el xs i). set (y := el xs i). unfold row. simpl tl.
    rewrite (combine_tl a0 ar b0 br) by lia.
    set (A := el (a0 :: ar)). set (Bf := el (b0 :: br)).
    assert (E1 : (y - a0) * 1 = monic A Bf 1 y) by (rewrite monic_1; unfold A, el; simpl; ring).
    assert (LL : forall (l : list (R * R)) p q, length (polyval_loop y l p q) = length l).
    { induction l as [|[u v] l IH]; intros; [reflexivity|]. simpl. now rewrite IH. }
    split.
    + cbn [length]. rewrite LL, map_length, seq_length. reflexivity.
    + intros [|[|k]] Hk; [reflexivity|exact E1|].
      unfold el at 1. cbn [nth]. change (nth k ?l 0) with (el l k).
      apply (polyval_loop_el y A Bf (length ar) 0 _ _ k); [exact E1|reflexivity|lia].
  - intros gamma power2 N a b xs Ha Hb HN.
    destruct (rec_jacobi_ok gamma power2 N a b Ha Hb HN) as (al & be & E & La & Lb & Ea & Eb).
    exists (map (jacobi_row N a b) xs), al, be, (lead a b).
    split; [unfold jacobi; destruct (1 <? Z.of_nat N)%Z; reflexivity|].
    split; [exact E|]. split; [now rewrite map_length|].
    split; [intros; now apply lead_pos|].
    intros i k Hi Hk. rewrite (nth_indep _ [] (jacobi_row N a b 0)) by (now rewrite map_length).
    rewrite map_nth. fold (el xs i). rewrite jacobi_row_el by assumption. unfold jpoly. f_equal.
    symmetry. apply (monic_ext _ _ _ _ N); auto.
    intros j Hj. rewrite Eb by lia. destruct j; [lia|reflexivity].
Qed.
Print Assumptions C158_values.
Example C158_ex :
  polyval Py2 [0; 0] [2; 1 / 3] [1] = Ok [[1; (1 - 0) * 1; (1 - 0) * ((1 - 0) * 1) - 1 / 3 * 1]]
  /\ polyval Py3 [0; 0] [2; 1 / 3] [1] = Raise NameError.
Proof. split; reflexivity. Qed.

(* ================================================================= C159 *)
Lemma el_indexed (g : nat -> R -> R) r n k : length r = n -> (k < n)%nat ->
  el (map (fun kp => g (fst kp) (snd kp)) (combine (seq 0 n) r)) k = g k (el r k).
Proof.
  intros L Hk. unfold el.
  rewrite (nth_indep _ 0 ((fun kp => g (fst kp) (snd kp)) (O, 0))).
  2:{ rewrite map_length, combine_length, seq_length, L. lia. }
  rewrite (map_nth (fun kp => g (fst kp) (snd kp))).
  rewrite combine_nth by (rewrite seq_length; lia).
  rewrite seq_nth by lia. reflexivity.
Qed.
Definition deriv_row (a b : R) (N : nat) (r : list R) : list R :=
  map (Rmult (/ 2)) (0 :: map (fun kp => snd kp * (a + b + 2 + INR (fst kp))) (combine (seq 0 (S N)) r)).
Lemma deriv_row_spec a b N r : length r = S N ->
  length (deriv_row a b N r) = S (S N)
  /\ el (deriv_row a b N r) 0 = 0
  /\ forall k, (k <= N)%nat -> el (deriv_row a b N r) (S k) = / 2 * (el r k * (a + b + 2 + INR k)).
Proof.
  intros L. unfold deriv_row. split; [|split].
  - rewrite map_length. change (length (?x :: ?l)) with (S (length l)).
    rewrite map_length, combine_length, seq_length. lia.
  - unfold el. simpl. ring.
  - intros k Hk. rewrite el_map.
    2:{ change (length (?x :: ?l)) with (S (length l)).
        rewrite map_length, combine_length, seq_length. lia. }
    f_equal. apply (el_indexed (fun i p => p * (a + b + 2 + INR i)) r (S N) k L). lia.
Qed.

(* Without normalisation, column k of jacobiD is the derivative of column k of
   jacobi. *)
Theorem C159_derivative :
  forall gamma power2 v N a b x0 D,
  -1 < a -> -1 < b ->
  jacobiD gamma power2 v N a b [x0] 1 = Ok D ->
  exists row, D = [row] /\ length row = S N
  /\ forall k, (k <= N)%nat ->
     exists f, (forall x, exists prow, jacobi gamma power2 Py2 N a b [x] 1 = Ok [prow] /\ f x = el prow k)
       /\ is_derive f x0 (el row k).
Proof.
  intros gamma power2 v N a b x0 D Ha Hb H.
  assert (J : forall x, jacobi gamma power2 Py2 N a b [x] 1 = Ok [jacobi_row N a b x])
    by (intros; unfold jacobi; destruct (1 <? Z.of_nat N)%Z; reflexivity).
  unfold jacobiD in H. destruct N as [|N].
  - injection H as <-. exists [0]. split; [reflexivity|]. split; [reflexivity|].
    intros k Hk. assert (k = O) by lia. subst. exists (fun _ => 1). split.
    + intros x. exists (jacobi_row 0 a b x). split; [apply J|reflexivity].
    + evar_last; [apply @is_derive_const|]. reflexivity.
  - destruct (jacobi gamma power2 v N (a + 1) (b + 1) [x0] 1) as [P|] eqn:E; [|discriminate].
    assert (EP : P = [jacobi_row N (a + 1) (b + 1) x0]).
    { unfold jacobi in E. destruct (if (1 <? Z.of_nat N)%Z then py2_builtin v else Ok tt); [|discriminate].
      simpl in E. now injection E as <-. }
    subst P. change (Ok [deriv_row a b N (jacobi_row N (a + 1) (b + 1) x0)] = Ok D) in H.
    injection H as <-.
    destruct (deriv_row_spec a b N _ (jacobi_row_length N (a + 1) (b + 1) x0)) as (Ld & E0 & ES).
    eexists. split; [reflexivity|]. split; [exact Ld|].
    intros [|k] Hk.
    + exists (fun _ => 1). split.
      * intros x. eexists. split; [apply J|reflexivity].
      * rewrite E0. evar_last; [apply @is_derive_const|reflexivity].
    + exists (jpoly a b (S k)). split.
      * intros x. eexists. split; [apply J|]. symmetry. apply jacobi_row_el; auto.
      * rewrite ES by lia. evar_last; [apply jpoly_derive; assumption|].
        rewrite jacobi_row_el by (lra || lia).
        match goal with |- ?p = ?q => change (@eq R p q) end. ring.
Qed.
Print Assumptions C159_derivative.

(* With NOPT=2 it is not the derivative of the normalised polynomials. *)
Theorem C159_refuted :
  ~ (forall gamma power2 N a b x0 D,
       gamma_ok gamma -> power2_ok power2 -> -1 < a -> -1 < b ->
       jacobiD gamma power2 Py3 N a b [x0] 2 = Ok D ->
       exists row, D = [row]
       /\ forall k, (k <= N)%nat ->
          exists f, (forall x, exists prow, jacobi gamma power2 Py3 N a b [x] 2 = Ok [prow] /\ f x = el prow k)
            /\ is_derive f x0 (el row k)).
Proof.
  intros H.
  destruct (H gamma0 (Rpower 2) 1%nat 0 0 0 _ gamma0_ok power2_0_ok ltac:(lra) ltac:(lra) eq_refl)
    as (row & E & F). clear H.
  injection E as <-. destruct (F 1%nat (le_n 1)) as (f & Hf & HD). clear F.
  unfold el in HD. simpl in HD.
  assert (P1 : pnorm gamma0 (Rpower 2) 0 0 1 = 2 / 3).
  { unfold pnorm. replace (0 + 0 + 1) with (INR 1) by (simpl; ring). rewrite power2_0_ok.
    replace (INR 1 + 0 + 1) with (INR 1 + 1) by ring. rewrite !gamma0_ok.
    replace (INR 1 + 0 + 0 + 1) with (INR 1 + 1) by ring. rewrite !gamma0_ok. simpl. field. }
  assert (P2 : pnorm gamma0 (Rpower 2) (0 + 1) (0 + 1) 0 = 4 / 3).
  { unfold pnorm. replace (0 + 1 + (0 + 1) + 1) with (INR 3) by (simpl; ring). rewrite power2_0_ok.
    replace (INR 0 + (0 + 1) + 1) with (INR 1 + 1) by (simpl; ring). rewrite !gamma0_ok.
    replace (INR 0 + (0 + 1) + (0 + 1) + 1) with (INR 2 + 1) by (simpl; ring). rewrite !gamma0_ok.
    simpl. field. }
  assert (D1 : is_derive f 0 (1 / sqrt (2 / 3))).
  { apply (is_derive_ext (fun x => x * (1 / sqrt (2 / 3)))).
    - intros x. destruct (Hf x) as (prow & Ep & Ef). rewrite Ef.
      unfold jacobi in Ep. simpl in Ep. injection Ep as <-. unfold el. simpl. rewrite P1.
      match goal with |- ?p = ?q => change (@eq R p q) end.
      assert (0 < sqrt (2 / 3)) by (apply sqrt_lt_R0; lra). field. lra.
    - auto_derive; auto. ring. }
  pose proof (is_derive_unique _ _ _ HD) as U1. pose proof (is_derive_unique _ _ _ D1) as U2.
  rewrite U2 in U1. rewrite P2 in U1.
  assert (S1 : 0 < sqrt (2 / 3)) by (apply sqrt_lt_R0; lra).
  assert (S2 : sqrt (2 / 3) < sqrt (4 / 3)) by (apply sqrt_lt_1; lra).
  assert (X : / 2 * (1 * (1 / sqrt (4 / 3)) * (0 + 0 + 2 + 0)) = / sqrt (4 / 3)) by (field; lra).
  rewrite X in U1. unfold Rdiv in U1. rewrite Rmult_1_l in U1.
  apply (f_equal Rinv) in U1. rewrite !Rinv_inv in U1. lra.
Qed.
Print Assumptions C159_refuted.

(* What it is: the derivative of the plain polynomial P_{k+1} over the norm of
   the polynomial of degree k with both parameters raised by one. *)
Theorem C159_scale :
  forall gamma power2 v N a b x0 D D2,
  jacobiD gamma power2 v (S N) a b [x0] 1 = Ok [D] ->
  jacobiD gamma power2 v (S N) a b [x0] 2 = Ok [D2] ->
  forall k, (k <= N)%nat -> el D2 (S k) = el D (S k) / sqrt (pnorm gamma power2 (a + 1) (b + 1) k).
Proof.
  intros gamma power2 v N a b x0 D D2 H1 H2 k Hk.
  unfold jacobiD in H1, H2. unfold jacobi in H1, H2.
  destruct (if (1 <? Z.of_nat N)%Z then py2_builtin v else Ok tt); [|discriminate].
  set (row := jacobi_row N (a + 1) (b + 1) x0).
  set (row2 := map (fun kp => snd kp * (1 / sqrt (pnorm gamma power2 (a + 1) (b + 1) (fst kp))))
                 (combine (seq 0 (S N)) row)).
  change (Ok [deriv_row a b N row] = Ok [D]) in H1.
  change (Ok [deriv_row a b N row2] = Ok [D2]) in H2.
  injection H1 as <-. injection H2 as <-.
  assert (Lr : length row = S N) by apply jacobi_row_length.
  assert (Lr2 : length row2 = S N)
    by (unfold row2; rewrite map_length, combine_length, seq_length; lia).
  rewrite (proj2 (proj2 (deriv_row_spec a b N row Lr)) k Hk).
  rewrite (proj2 (proj2 (deriv_row_spec a b N row2 Lr2)) k Hk).
  unfold row2. rewrite (el_indexed (fun i p => p * (1 / sqrt (pnorm gamma power2 (a + 1) (b + 1) i))) row (S N) k Lr) by lia.
  unfold Rdiv. ring.
Qed.
Print Assumptions C159_scale.
Example C159_ex : exists row,
  jacobiD gamma0 (Rpower 2) Py3 2 0 0 [3] 1 = Ok [row] /\ el row 2 = 9.
Proof.
  eexists. split; [reflexivity|]. unfold el. simpl. lra.
Qed.

(* ================================================================= C160 *)
(* The order N = 1, which rec_jacobi01 declares valid, is not usable: the
   coefficients are bare numbers that cannot be indexed. *)
Theorem C160_refuted :
  ~ (forall gamma power2 N a b, gamma_ok gamma -> power2_ok power2 ->
       (1 <= N)%Z -> -1 < a -> -1 < b ->
       exists r, rec_jacobi01 gamma power2 N a b = Ok r).
Proof.
  intros H.
  destruct (H gamma0 (Rpower 2) 1%Z 0 0 gamma0_ok power2_0_ok ltac:(lia) ltac:(lra) ltac:(lra)) as (r & E).
  unfold rec_jacobi01, rec_jacobi in E.
  destruct (Rle_dec 0 (-1)); [lra|]. cbn [Z.ltb Z.compare Pos.compare Pos.compare_cont Z.eqb Pos.eqb] in E.
  destruct (Req_EM_T (0 + 0 + 2) 0); [lra|]. discriminate.
Qed.
Print Assumptions C160_refuted.

Theorem C160_orders :
  forall gamma power2 N a b, -1 < a -> -1 < b ->
  ((N < 1)%Z -> rec_jacobi01 gamma power2 N a b = Raise ValueError)
  /\ rec_jacobi01 gamma power2 1 a b = Raise IndexError
  /\ (forall eig, exists e, rbind (rec_jacobi gamma power2 1 a b) (gauss_of eig) = Raise e)
  /\ ((2 <= N)%Z -> exists alpha beta, rec_jacobi01 gamma power2 N a b = Ok (Arrays alpha beta)
        /\ Z.of_nat (length alpha) = N /\ Z.of_nat (length beta) = N)
  /\ ((N < 1)%Z -> exists alpha beta, rec_jacobi gamma power2 N a b = Ok (Arrays alpha beta)
        /\ length alpha = 1%nat /\ length beta = 2%nat).
Proof.
  intros gamma power2 N a b Ha Hb.
  assert (Na : ~ a <= -1) by lra. assert (Nb : ~ b <= -1) by lra.
  split; [|split; [|split; [|split]]].
  - intros H. unfold rec_jacobi01. destruct (Rle_dec a (-1)); [lra|]. destruct (Rle_dec b (-1)); [lra|].
    destruct (Z.ltb_spec N 1); [reflexivity|lia].
  - unfold rec_jacobi01. destruct (Rle_dec a (-1)); [lra|]. destruct (Rle_dec b (-1)); [lra|].
    change (1 <? 1)%Z with false. cbv iota. unfold rec_jacobi.
    destruct (Req_EM_T (a + b + 2) 0); [lra|]. reflexivity.
  - intros eig. unfold rec_jacobi. destruct (Req_EM_T (a + b + 2) 0); [lra|].
    change (1 =? 1)%Z with true. cbv iota. cbn [rbind]. unfold gauss_of.
    destruct (stacked _ _) as [[s d]|e]; cbn [rbind]; [|eauto].
    destruct (eig s d) as [[x V]|e]; cbn [rbind]; eauto.
  - intros HN. unfold rec_jacobi01. destruct (Rle_dec a (-1)); [lra|]. destruct (Rle_dec b (-1)); [lra|].
    destruct (Z.ltb_spec N 1); [lia|].
    destruct (rec_jacobi_ok gamma power2 (Z.to_nat N) a b Ha Hb ltac:(lia))
      as (al & be & E & La & Lb & _). rewrite Z2Nat.id in E by lia. rewrite E. cbn [rbind].
    destruct be as [|b0 br]; [simpl in Lb; lia|].
    eexists _, _. split; [reflexivity|]. split; [rewrite map_length; lia|].
    rewrite set_nth_length, map_length. lia.
  - intros HN. unfold rec_jacobi. destruct (Req_EM_T (a + b + 2) 0); [lra|].
    destruct (Z.eqb_spec N 1); [lia|].
    destruct (Req_EM_T ((a + b + 2) ^ 2 * (a + b + 3)) 0) as [E|_].
    { exfalso. apply Rmult_integral in E as [E|E]; [|lra].
      assert (0 < (a + b + 2) ^ 2) by (apply pow_lt; lra). lra. }
    unfold arange1. replace (Z.to_nat (N - 1)) with O by lia.
    eexists _, _. split; [reflexivity|]. split; reflexivity.
Qed.
Print Assumptions C160_orders.
Example C160_ex : rec_jacobi01 gamma0 (Rpower 2) 1 0 0 = Raise IndexError.
Proof. now apply (C160_orders gamma0 (Rpower 2) 1 0 0); lra. Qed.
