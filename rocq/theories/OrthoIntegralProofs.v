(* Orthogonality of the Jacobi polynomials of common/orthopoly.py with respect to
   (1-x)^a (1+x)^b on [-1,1], for natural a and b, and on [0,1]. *)
From Coq Require Import Reals Psatz.
From Coquelicot Require Import Coquelicot.
From Verif Require Import Base OrthoModel OrthoSpec OrthoProofs OrthoJacobiProofs.
Open Scope R_scope.
Local Notation length := List.length.

Definition jweight (a b : nat) (x : R) : R := (1 - x) ^ a * (1 + x) ^ b.
Definition jint (a b : nat) (f : R -> R) : R := RInt (fun x => f x * jweight a b x) (-1) 1.

Lemma continuous_sumn c d (x : R) : continuous (fun y => sumn (fun j => c j * y ^ j) d) x.
Proof.
  induction d as [|d IH]; simpl.
  - apply continuous_const.
  - apply (continuous_plus (fun y => sumn (fun j => c j * y ^ j) d) (fun y => c d * y ^ d)); [exact IH|].
    apply (ex_derive_continuous (fun y => c d * y ^ d)). auto_derive; auto.
Qed.
Lemma continuous_polynomial f (x : R) : polynomial f -> continuous f x.
Proof.
  intros (d & c & H). apply (continuous_ext (fun y => sumn (fun j => c j * y ^ j) d)).
  - intros; now rewrite H.
  - apply continuous_sumn.
Qed.
Lemma continuous_jweight a b (x : R) : continuous (jweight a b) x.
Proof. apply (ex_derive_continuous (jweight a b)). unfold jweight. auto_derive; auto. Qed.
Lemma ex_jint a b f : polynomial f -> ex_RInt (fun x => f x * jweight a b x) (-1) 1.
Proof.
  intros H. apply @ex_RInt_continuous. intros z _.
  apply (continuous_mult f (jweight a b)); [now apply continuous_polynomial|apply continuous_jweight].
Qed.
Lemma jint_functional a b : functional (jint a b).
Proof.
  split; unfold jint.
  - intros f g E. apply RInt_ext. intros x _. now rewrite E.
  - intros f g u v Hf Hg.
    rewrite (RInt_ext _ (fun x => plus (scal u (f x * jweight a b x)) (scal v (g x * jweight a b x)))).
    + rewrite (RInt_plus (fun x => scal u (f x * jweight a b x)) (fun x => scal v (g x * jweight a b x))).
      * rewrite (RInt_scal (fun x => f x * jweight a b x)), (RInt_scal (fun x => g x * jweight a b x))
          by (now apply ex_jint). reflexivity.
      * apply @ex_RInt_scal. now apply ex_jint.
      * apply @ex_RInt_scal. now apply ex_jint.
    + intros x _. unfold plus, scal; simpl; unfold mult; simpl.
      match goal with |- ?p = ?q => change (@eq R p q) end. ring.
Qed.

Section Ortho.
Variables (a b : nat) (mu : R).
Let A := INR a.
Let B := INR b.
Let p := monic (jal A B) (jbe mu A B).
Let dp := dmonic (jal A B) (jbe mu A B).
Let HA : -1 < A. Proof. unfold A. pose proof (pos_INR a). lra. Qed.
Let HB : -1 < B. Proof. unfold B. pose proof (pos_INR b). lra. Qed.
Definition bigW (x : R) : R := (1 - x) ^ S a * (1 + x) ^ S b.

Lemma bigW_weight x : bigW x = jweight a b x * (1 - x ^ 2).
Proof. unfold bigW, jweight. simpl. ring. Qed.

Definition dweight (x : R) : R :=
  - INR a * (1 - x) ^ pred a * (1 + x) ^ b + (1 - x) ^ a * (INR b * (1 + x) ^ pred b).
Lemma is_derive_weight x : is_derive (jweight a b) x (dweight x).
Proof. unfold jweight, dweight. auto_derive; auto. unfold Rminus. ring. Qed.
Lemma dweight_eq x : (1 - x ^ 2) * dweight x = jweight a b x * (B - A - (A + B) * x).
Proof.
  unfold dweight, jweight, A, B.
  destruct a as [|a']; destruct b as [|b'].
  - simpl. ring.
  - rewrite S_INR. simpl pred. simpl pow. simpl INR. ring.
  - rewrite S_INR. simpl pred. simpl pow. simpl INR. ring.
  - rewrite !S_INR. simpl pred. simpl pow. ring.
Qed.

Lemma is_derive_flux k x :
  is_derive (fun x => bigW x * dp k x) x
    (- (INR k * (INR k + A + B + 1)) * (jweight a b x * p k x)).
Proof.
  destruct k as [|k].
  - apply (is_derive_ext (fun _ => 0)).
    + intros t. unfold dp. rewrite dmonic_0.
      match goal with |- ?u = ?v => change (@eq R u v) end. ring.
    + evar_last; [apply @is_derive_const|].
      change (@zero _) with (0 : R). match goal with |- ?u = ?v => change (@eq R u v) end.
      change (INR 0) with 0. ring.
  - set (e := (2 * INR (S k) + (A + B) + 1) * jbe mu A B (S k)).
    apply (is_derive_ext (fun x => jweight a b x
        * (slope A B (S k) x * p (S k) x + e * p k x))).
    + intros t. rewrite bigW_weight, Rmult_assoc. unfold dp, p, e.
      rewrite (structure mu A B HA HB). reflexivity.
    + evar_last.
      * apply @is_derive_mult; [apply is_derive_weight| |intros; apply Rmult_comm].
        apply @is_derive_plus.
        -- apply @is_derive_mult; [|apply is_derive_monic|intros; apply Rmult_comm].
           unfold slope. auto_derive; auto.
        -- apply @is_derive_scal. apply is_derive_monic.
      * unfold plus, mult, scal; simpl; unfold mult; simpl.
        match goal with |- ?u = ?v => change (@eq R u v) end.
        fold p. pose proof (structure mu A B HA HB x k) as T.
        pose proof (lowering mu A B HA HB x k) as Lo. fold e in T, Lo.
        fold p dp in T, Lo.
        rewrite <- T.
        replace (dweight x * ((1 - x ^ 2) * dp (S k) x))
          with (((1 - x ^ 2) * dweight x) * dp (S k) x) by ring.
        rewrite dweight_eq.
        change (dmonic (jal A B) (jbe mu A B) (S k) x) with (dp (S k) x).
        change (dmonic (jal A B) (jbe mu A B) k x) with (dp k x).
        replace (match k with O => 1 | S _ => INR k + 1 end) with (INR (S k)) by reflexivity.
        rewrite Lo. unfold slope.
        pose proof (INR_ge1 k). pose proof HA. pose proof HB.
        set (P := p (S k) x). set (D := dp (S k) x). set (w := jweight a b x).
        set (K := INR (S k)) in *. clearbody P D w K.
        field. lra.
Qed.

Lemma bigW_ends : bigW (-1) = 0 /\ bigW 1 = 0.
Proof. unfold bigW. simpl. split; ring. Qed.

Lemma orthogonal k l : (k < l)%nat -> jint a b (fun x => p k x * p l x) = 0.
Proof.
  intros Hkl.
  set (lam := fun k => INR k * (INR k + A + B + 1)).
  assert (Hl : lam l - lam k <> 0).
  { unfold lam. pose proof (lt_INR _ _ Hkl). pose proof (pos_INR k).
    assert (0 <= A) by (unfold A; apply pos_INR). assert (0 <= B) by (unfold B; apply pos_INR).
    assert (0 < (INR l - INR k) * (INR l + INR k + A + B + 1)) by (apply Rmult_lt_0_compat; lra).
    nra. }
  set (G := fun x => bigW x * dp k x * p l x - p k x * (bigW x * dp l x)).
  assert (HG : forall x, is_derive G x ((lam l - lam k) * ((p k x * p l x) * jweight a b x))).
  { intros x. unfold G. evar_last.
    - apply @is_derive_minus.
      + apply @is_derive_mult; [apply is_derive_flux|apply is_derive_monic|intros; apply Rmult_comm].
      + apply @is_derive_mult; [apply is_derive_monic|apply is_derive_flux|intros; apply Rmult_comm].
    - unfold minus, plus, opp, mult; simpl.
      match goal with |- ?u = ?v => change (@eq R u v) end. fold dp p.
      change (dmonic (jal A B) (jbe mu A B)) with dp. change (monic (jal A B) (jbe mu A B)) with p.
      unfold lam. ring. }
  assert (Pp : forall k, polynomial (p k)) by (intros; apply polynomial_monic).
  assert (I : is_RInt (fun x => (lam l - lam k) * ((p k x * p l x) * jweight a b x)) (-1) 1
                (minus (G 1) (G (-1)))).
  { apply (is_RInt_derive G).
    - intros x _. apply HG.
    - intros x _. apply (continuous_mult (fun _ => lam l - lam k)); [apply continuous_const|].
      apply (continuous_mult (fun x => p k x * p l x) (jweight a b));
        [apply continuous_polynomial; now apply polynomial_mult|apply continuous_jweight]. }
  assert (E : G 1 = 0 /\ G (-1) = 0).
  { unfold G. destruct bigW_ends as [-> ->]. split; ring. }
  destruct E as [E1 E2]. rewrite E1, E2 in I.
  apply (Rmult_eq_reg_l (lam l - lam k)); [|exact Hl]. rewrite Rmult_0_r.
  unfold jint. rewrite <- (RInt_scal (fun x => p k x * p l x * jweight a b x)).
  - change (RInt (fun x => scal (lam l - lam k) (p k x * p l x * jweight a b x)) (-1) 1)
      with (RInt (fun x => (lam l - lam k) * (p k x * p l x * jweight a b x)) (-1) 1).
    rewrite (is_RInt_unique _ _ _ _ I). unfold minus, plus, opp. simpl. ring.
  - apply (ex_jint a b (fun x => p k x * p l x)). now apply polynomial_mult.
Qed.
End Ortho.

(* the total weight *)
Lemma total_0 b : jint 0 b (fun _ => 1) = 2 ^ (b + 1) / INR (b + 1).
Proof.
  unfold jint, jweight.
  assert (I : is_RInt (fun x => (1 + x) ^ b) (-1) 1
                (minus ((1 + 1) ^ S b / INR (S b)) ((1 + -1) ^ S b / INR (S b)))).
  { apply (is_RInt_derive (fun x => (1 + x) ^ S b / INR (S b))).
    - intros x _. auto_derive; auto.
      replace (match b with O => 1 | S _ => INR b + 1 end) with (INR (S b)) by reflexivity.
      simpl pred. rewrite S_INR. field. pose proof (pos_INR b). lra.
    - intros x _. apply (ex_derive_continuous (fun x => (1 + x) ^ b)). auto_derive; auto. }
  rewrite (RInt_ext _ (fun x => (1 + x) ^ b)) by (intros; simpl; ring).
  rewrite (is_RInt_unique _ _ _ _ I). unfold minus, plus, opp. simpl.
  replace (b + 1)%nat with (S b) by lia.
  replace (1 + -1) with 0 by ring. rewrite !Rmult_0_l.
  change (2 ^ S b) with (2 * 2 ^ b). replace (1 + 1) with 2 by ring.
  change (match b with O => 1 | S _ => INR b + 1 end) with (INR (S b)).
  rewrite S_INR. pose proof (pos_INR b). field. lra.
Qed.
Lemma total_step a b :
  INR (S a) * jint a (S b) (fun _ => 1) = INR (S b) * jint (S a) b (fun _ => 1).
Proof.
  unfold jint.
  assert (X1 := ex_jint a (S b) (fun _ => 1) (polynomial_const 1)).
  assert (X2 := ex_jint (S a) b (fun _ => 1) (polynomial_const 1)).
  assert (I : is_RInt (fun x => - INR (S a) * (1 * jweight a (S b) x) + INR (S b) * (1 * jweight (S a) b x)) (-1) 1
                (minus (bigW a b 1) (bigW a b (-1)))).
  { apply (is_RInt_derive (bigW a b)).
    - intros x _. unfold bigW, jweight. auto_derive; auto.
      change (match a with O => 1 | S _ => INR a + 1 end) with (INR (S a)).
      change (match b with O => 1 | S _ => INR b + 1 end) with (INR (S b)).
      unfold Rminus. simpl pow. ring.
    - intros x _. apply (ex_derive_continuous (fun x => - INR (S a) * (1 * jweight a (S b) x) + INR (S b) * (1 * jweight (S a) b x))).
      unfold jweight. auto_derive; auto. }
  destruct (bigW_ends a b) as [E1 E2]. rewrite E1, E2 in I.
  assert (I' := is_RInt_unique _ _ _ _ I). clear I. rename I' into I.
  rewrite (RInt_ext _ (fun x => plus (scal (- INR (S a)) (1 * jweight a (S b) x)) (scal (INR (S b)) (1 * jweight (S a) b x)))) in I
    by (intros; reflexivity).
  rewrite (RInt_plus (fun x => scal (- INR (S a)) (1 * jweight a (S b) x)) (fun x => scal (INR (S b)) (1 * jweight (S a) b x))) in I.
  - rewrite (RInt_scal (fun x => 1 * jweight a (S b) x)), (RInt_scal (fun x => 1 * jweight (S a) b x)) in I
      by assumption.
    change (- INR (S a) * RInt (fun x => 1 * jweight a (S b) x) (-1) 1
            + INR (S b) * RInt (fun x => 1 * jweight (S a) b x) (-1) 1 = 0 + - 0) in I. lra.
  - apply @ex_RInt_scal. assumption.
  - apply @ex_RInt_scal. assumption.
Qed.
Lemma total a b :
  jint a b (fun _ => 1)
  = 2 ^ (a + b + 1) * INR (fact a) * INR (fact b) / INR (fact (a + b + 1)).
Proof.
  revert b. induction a as [|a IH]; intros b.
  - rewrite total_0. replace (0 + b + 1)%nat with (S b) by lia. replace (b + 1)%nat with (S b) by lia.
    change (fact (S b)) with (S b * fact b)%nat. rewrite mult_INR. simpl (INR (fact 0)).
    field. split; [apply INR_fact_neq_0|apply not_0_INR; lia].
  - pose proof (total_step a b) as T. rewrite IH in T.
    apply (Rmult_eq_reg_l (INR (S b))); [|apply not_0_INR; lia]. rewrite <- T.
    replace (S a + b + 1)%nat with (a + S b + 1)%nat by lia.
    change (fact (S a)) with (S a * fact a)%nat. change (fact (S b)) with (S b * fact b)%nat.
    rewrite !mult_INR. field. apply INR_fact_neq_0.
Qed.

Lemma jacobi_coefficients a b n :
  coefficients_of (jint a b) (jal (INR a) (INR b)) (jbe (jint a b (fun _ => 1)) (INR a) (INR b)) n.
Proof. split; [reflexivity|]. intros k l H. apply orthogonal. lia. Qed.
