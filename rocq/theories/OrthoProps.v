(* C153-C156: the quadrature rules and the modified Chebyshev algorithm of
   common/orthopoly.py. *)
From Coq Require Import Reals Psatz.
From Verif Require Import Base OrthoModel OrthoSpec OrthoProofs OrthoGaussProofs OrthoChebProofs.
Open Scope R_scope.
Local Notation length := List.length.

(* ---- a concrete LAPACK for the examples: two-point problems ---- *)
Definition half_root : R := sqrt (1 / 2).
Definition third_root : R := sqrt (1 / 3).
Definition two_eig : eigen := fun s d =>
  match s, d with
  | [_; s1], [d0; d1] =>
      if Req_EM_T d0 0 then
        if Req_EM_T d1 0 then Ok ([- s1; s1], [[half_root; half_root]; [- half_root; half_root]])
        else if Req_EM_T d1 (-1 + 1 / 3) then
          if Req_EM_T s1 third_root
          then Ok ([-1; 1 / 3], [[1 / 2; 3 / 2 * third_root]; [- (3 / 2 * third_root); 1 / 2]])
          else Raise ValueError
        else Raise ValueError
      else Raise ValueError
  | _, _ => Raise ValueError
  end.
Definition two_sol : banded := fun u d l f =>
  match d, f with
  | [d0], [f0] => if Req_EM_T d0 0 then Raise GenericException else Ok [f0 / d0]
  | _, _ => Raise ValueError
  end.

Lemma half_sq : half_root * half_root = 1 / 2.
Proof. apply sqrt_sqrt. lra. Qed.
Lemma third_sq : third_root * third_root = 1 / 3.
Proof. apply sqrt_sqrt. lra. Qed.

Lemma two_eig_sound : eig_sound two_eig.
Proof.
  intros s d x V H. unfold two_eig in H.
  destruct s as [|s0 [|s1 [|]]]; try discriminate.
  destruct d as [|d0 [|d1 [|]]]; try discriminate.
  destruct (Req_EM_T d0 0) as [E0|]; [|discriminate].
  destruct (Req_EM_T d1 0) as [E1|].
  - injection H as <- <-. subst. split; [reflexivity|]. split; [reflexivity|].
    split; [repeat constructor|]. pose proof half_sq as Q.
    split; [|split].
    + intros [|[|i]] [|[|k]] Hi Hk; simpl in Hi, Hk; try lia; unfold el, tri; simpl; ring.
    + intros [|[|i]] [|[|k]] Hi Hk; simpl in Hi, Hk; try lia; unfold el, delta; simpl; lra.
    + intros [|[|i]] [|[|k]] Hi Hk; simpl in Hi, Hk; try lia; unfold el, delta; simpl; lra.
  - destruct (Req_EM_T d1 (-1 + 1 / 3)) as [E1|]; [|discriminate].
    destruct (Req_EM_T s1 third_root) as [E2|]; [|discriminate].
    injection H as <- <-. subst. split; [reflexivity|]. split; [reflexivity|].
    split; [repeat constructor|]. pose proof third_sq as Q.
    split; [|split].
    + intros [|[|i]] [|[|k]] Hi Hk; simpl in Hi, Hk; try lia; unfold el, tri; simpl; nra.
    + intros [|[|i]] [|[|k]] Hi Hk; simpl in Hi, Hk; try lia; unfold el, delta; simpl; nra.
    + intros [|[|i]] [|[|k]] Hi Hk; simpl in Hi, Hk; try lia; unfold el, delta; simpl; nra.
Qed.
Lemma two_sol_sound : sol_sound two_sol.
Proof.
  intros u d l f g H. unfold two_sol in H.
  destruct d as [|d0 [|]]; try discriminate. destruct f as [|f0 [|]]; try discriminate.
  destruct (Req_EM_T d0 0); [discriminate|]. injection H as <-. split; [reflexivity|].
  intros [|k] Hk; simpl in Hk; [|lia]. unfold el, band. simpl. field. assumption.
Qed.

(* Simpson's rule is a functional that agrees with the integral over [-1,1] on
   the polynomials of the two-point examples. *)
Definition simpson (f : R -> R) : R := (f (-1) + 4 * f 0 + f 1) / 3.
Lemma simpson_functional : functional simpson.
Proof. split; unfold simpson; intros; [now rewrite !H|field]. Qed.
Definition legendre2 : coefficients_of simpson (el [0; 0]) (el [2; 1 / 3]) 2.
Proof.
  split; [unfold simpson, el; simpl; lra|].
  intros [|[|k]] [|[|[|l]]] H; try lia; unfold simpson, monic, el; simpl; lra.
Qed.

(* ================================================================= C153 *)
(* gauss(alpha, beta) is the Gauss rule of the weight whose recursion
   coefficients are alpha and beta: it integrates every polynomial of degree
   less than twice the number of nodes exactly. *)
Theorem C153_exact :
  forall eig alpha beta x w L,
  eig_sound eig ->
  gauss eig alpha beta = Ok (x, w) ->
  (forall k, (0 < k < length alpha)%nat -> 0 < el beta k) ->
  functional L -> coefficients_of L (el alpha) (el beta) (length alpha) ->
  length x = length alpha /\ length w = length alpha /\ exact L x w (2 * length alpha).
Proof.
  intros eig alpha beta x w L HE HG Hb HL HC.
  destruct (gauss_inv _ _ _ _ _ HE HG) as (n & V & La & _ & Lx & Lw & _).
  split; [lia|]. split; [lia|]. now apply (gauss_exact eig alpha beta).
Qed.
Print Assumptions C153_exact.

(* Its nodes are the zeros of the polynomial of degree n, all different, and
   its weights are positive. *)
Theorem C153_nodes :
  forall eig alpha beta x w,
  eig_sound eig ->
  gauss eig alpha beta = Ok (x, w) ->
  (forall k, (k < length alpha)%nat -> 0 < el beta k) ->
  (forall i, (i < length x)%nat -> monic (el alpha) (el beta) (length alpha) (el x i) = 0)
  /\ (forall i j, (i < length x)%nat -> (j < length x)%nat -> el x i = el x j -> i = j)
  /\ (forall i, (i < length x)%nat -> 0 < el w i).
Proof.
  intros eig alpha beta x w HE HG Hb.
  destruct (gauss_inv _ _ _ _ _ HE HG) as (n & V & La & Lb & Lx & Lw & HF & D & W).
  assert (Hb' : forall k, (0 < k <= n)%nat -> 0 < el beta k) by (intros; apply Hb; lia).
  rewrite La, Lx. split; [|split].
  - intros i Hi. apply (node_zero n _ _ _ V D Hb'). assumption.
  - intros i j Hi Hj E. destruct (Nat.eq_dec i j) as [|Ne]; [assumption|]. exfalso.
    pose proof (first_nonzero n _ _ _ V D Hb' i Hi) as Ni.
    pose proof (proj1 (proj2 D) i j Hi Hj) as O1. pose proof (proj1 (proj2 D) j j Hj Hj) as O2.
    unfold delta in O1, O2. rewrite Nat.eqb_refl in O2.
    destruct (Nat.eqb_spec i j); [lia|].
    assert (S : sumn (fun k => V k i * V k j) (S n) * V O j
                = sumn (fun k => V k j * V k j) (S n) * V O i).
    { rewrite !(Rmult_comm (sumn _ _)), <- !sumn_scal. apply sumn_ext. intros k Hk.
      pose proof (vector n _ _ _ V D Hb' i k Hi Hk) as Vi.
      pose proof (vector n _ _ _ V D Hb' j k Hj Hk) as Vj. rewrite E in Vi.
      pose proof (sq_pos n (el beta) Hb' k ltac:(lia)) as P.
      apply (Rmult_eq_reg_l (sq (el beta) k)); [|lra].
      replace (sq (el beta) k * (V O j * (V k i * V k j)))
        with (V O j * (V k j * (sq (el beta) k * V k i))) by ring.
      rewrite Vi.
      replace (V O j * (V k j * (monic (el alpha) (el beta) k (el x j) * V O i)))
        with (V k j * (V O i * (monic (el alpha) (el beta) k (el x j) * V O j))) by ring.
      rewrite <- Vj. ring. }
    rewrite O1, O2 in S. apply Ni. lra.
  - intros i Hi. rewrite W by assumption. apply Rmult_lt_0_compat; [apply Hb; lia|].
    rewrite <- Rsqr_pow2. apply Rlt_0_sqr. now apply (first_nonzero n _ _ _ V D Hb').
Qed.
Print Assumptions C153_nodes.

(* The two-point Gauss-Legendre rule. *)
Example C153_ex : exists x w,
  gauss two_eig [0; 0] [2; 1 / 3] = Ok (x, w) /\ exact simpson x w 4
  /\ el x 1 = third_root /\ 0 < el w 0.
Proof.
  assert (G : gauss two_eig [0; 0] [2; 1 / 3]
              = Ok ([- third_root; third_root], [2 * half_root ^ 2; 2 * half_root ^ 2])).
  { unfold gauss, stacked, roots. simpl.
    destruct (Rlt_dec 2 0); [lra|]. destruct (Rlt_dec (1 / 3) 0); [lra|]. simpl.
    unfold two_eig. destruct (Req_EM_T 0 0); [|lra]. reflexivity. }
  exists [- third_root; third_root], [2 * half_root ^ 2; 2 * half_root ^ 2].
  split; [exact G|].
  assert (Hb : forall k, (k < 2)%nat -> 0 < el [2; 1 / 3] k)
    by (intros [|[|k]] Hk; unfold el; simpl; try lra; lia).
  split; [|split; [reflexivity|]].
  - apply (C153_exact two_eig [0; 0] [2; 1 / 3] _ _ simpson two_eig_sound G).
    + intros k Hk. apply Hb. simpl in Hk. lia.
    + apply simpson_functional.
    + exact legendre2.
  - apply (C153_nodes two_eig [0; 0] [2; 1 / 3] _ _ two_eig_sound G Hb). simpl. lia.
Qed.

(* ================================================================= C154 *)
(* radau: the prescribed node is one of the nodes, and the rule with n nodes is
   exact below degree 2n-1. *)
Theorem C154_radau :
  forall eig sol alpha beta xr x w L,
  eig_sound eig -> sol_sound sol ->
  outcome (radau eig sol alpha beta xr) = Ok (x, w) ->
  (forall k, (0 < k < length alpha)%nat -> 0 < el beta k) ->
  functional L -> coefficients_of L (el alpha) (el beta) (length alpha) ->
  length x = length alpha
  /\ In xr x
  /\ exact L x w (2 * length alpha - 1).
Proof.
  intros eig sol alpha beta xr x w L HE HS HO Hb HL HC.
  destruct (radau_inv _ _ _ _ _ _ _ HO) as (ar & HR & HG & _).
  destruct (radau_shift_inv _ _ _ _ _ HS HR) as (m & g & La & Lb & -> & Lg & HF & Eq).
  assert (Lr : length (set_last (xr + el g m) alpha) = S (S m)) by (now rewrite set_last_length).
  assert (Er : forall k, el (set_last (xr + el g m) alpha) k
                         = if Nat.eqb k (S m) then xr + el g m else el alpha k).
  { intros k. rewrite set_last_el by lia. rewrite La. cbn [pred]. now rewrite Nat.eqb_sym. }
  destruct (gauss_inv _ _ _ _ _ HE HG) as (n & V & Ln & _ & Lx & Lw & _).
  assert (n = S m) by lia. subst n.
  split; [lia|]. split.
  - destruct (gauss_eigenvalue eig _ _ _ _ xr
      (fun k => if Nat.eqb k (S m) then - sqrt (el beta (S m)) else el g k) (S m) HE HG Lr)
      as (i & Hi & Ei).
    + intros k Hk. rewrite Er.
      assert (Q : sqrt (el beta (S m)) * sqrt (el beta (S m)) = el beta (S m))
        by (apply sqrt_sqrt, Rlt_le, Hb; lia).
      destruct (Nat.eqb_spec k (S m)) as [->|N].
      * rewrite Nat.ltb_irrefl. destruct (Nat.eqb_spec m (S m)); [lia|]. ring.
      * specialize (Eq k ltac:(lia)).
        rewrite (proj2 (Nat.ltb_lt (S k) (S (S m)))) by lia.
        destruct (Nat.eqb_spec (S k) (S m)) as [E|E].
        -- assert (k = m) by lia. subst k. rewrite Nat.eqb_refl, Nat.ltb_irrefl in Eq.
           destruct m as [|m]; [lra|]. destruct (Nat.eqb_spec m (S (S m))); [lia|]. lra.
        -- rewrite (proj2 (Nat.ltb_lt (S k) (S m))) in Eq by lia.
           destruct (Nat.eqb_spec k m); [lia|].
           destruct k as [|k]; [lra|]. destruct (Nat.eqb_spec k (S m)); [lia|]. lra.
    + exists (S m). split; [lia|]. rewrite Nat.eqb_refl.
      pose proof (sqrt_lt_R0 (el beta (S m)) ltac:(apply Hb; lia)). lra.
    + rewrite <- Ei. now apply nth_In.
  - destruct (gauss_products _ _ _ _ _ (S m) HE HG Lr ltac:(intros; apply Hb; lia)) as (P & _).
    replace (2 * length alpha - 1)%nat with (S (S m + S m))%nat by lia.
    apply (exact_by_products L (el alpha) (el beta)); [assumption|]. intros k l Hk Hl.
    rewrite (coefficients_product L _ _ (length alpha)) by (auto; lia).
    rewrite <- P by lia. apply functional_rule. intros y.
    assert (M : forall k, (k <= S m)%nat ->
              monic (el (set_last (xr + el g m) alpha)) (el beta) k y = monic (el alpha) (el beta) k y).
    { intros j Hj. apply (monic_ext _ _ _ _ (S m)); auto.
      intros i Hi. rewrite Er. destruct (Nat.eqb_spec i (S m)); [lia|reflexivity]. }
    now rewrite !M by lia.
Qed.
Print Assumptions C154_radau.

(* lobatto: both prescribed nodes are nodes, and the rule with n nodes is exact
   below degree 2n-2. *)
Theorem C154_lobatto :
  forall eig sol alpha beta xl1 xl2 x w L,
  eig_sound eig -> sol_sound sol ->
  outcome (lobatto eig sol alpha beta xl1 xl2) = Ok (x, w) ->
  (forall k, (0 < k < length alpha)%nat -> 0 < el beta k) ->
  functional L -> coefficients_of L (el alpha) (el beta) (length alpha) ->
  xl1 <> xl2 ->
  length x = length alpha
  /\ In xl1 x /\ In xl2 x
  /\ exact L x w (2 * length alpha - 2).
Proof.
  intros eig sol alpha beta xl1 xl2 x w L HE HS HO Hb HL HC Hd. unfold lobatto in HO.
  destruct (lobatto_ends sol alpha beta xl1 xl2) as [[a b]|] eqn:LE; [|discriminate].
  simpl in HO. rename HO into HG.
  destruct (lobatto_inv _ _ _ _ _ _ _ HS LE) as (m & g1 & g2 & La & Lb & E1 & E2 & Eq).
  assert (Lr : length (set_last a alpha) = S (S m)) by (now rewrite set_last_length).
  assert (Ea : forall k, el (set_last a alpha) k = if Nat.eqb k (S m) then a else el alpha k).
  { intros k. rewrite set_last_el by lia. rewrite La. cbn [pred]. now rewrite Nat.eqb_sym. }
  assert (Eb : forall k, el (set_last b beta) k = if Nat.eqb k (S m) then b else el beta k).
  { intros k. rewrite set_last_el by lia. rewrite Lb. cbn [pred]. now rewrite Nat.eqb_sym. }
  destruct (gauss_inv _ _ _ _ _ HE HG) as (n & V & Ln & Lbn & Lx & Lw & HF & _).
  assert (n = S m) by lia. subst n.
  assert (Pb : 0 < b).
  { assert (Nb : b <> 0) by (intros Z; rewrite Z in E1, E2; apply Hd; lra).
    rewrite Forall_forall in HF.
    assert (In (el (set_last b beta) (S m)) (set_last b beta)) as Hin
      by (apply nth_In_range; rewrite set_last_length; lia).
    apply HF in Hin. rewrite Eb, Nat.eqb_refl in Hin. lra. }
  assert (Q : sqrt b * sqrt b = b) by (apply sqrt_sqrt; lra).
  assert (IN : forall g x0, (g = g1 /\ x0 = xl1) \/ (g = g2 /\ x0 = xl2) -> a - el g m * b = x0 -> In x0 x).
  { intros g x0 Hg E0. specialize (Eq g x0 Hg).
    destruct (gauss_eigenvalue eig _ _ _ _ x0
      (fun k => if Nat.eqb k (S m) then 1 else - sqrt b * el g k) (S m) HE HG Lr)
      as (i & Hi & Ei).
    - intros k Hk. rewrite Ea.
      destruct (Nat.eqb_spec k (S m)) as [->|N].
      + rewrite Nat.ltb_irrefl. rewrite Eb, Nat.eqb_refl.
        destruct (Nat.eqb_spec m (S m)); [lia|]. rewrite <- E0.
        replace (sqrt b * (- sqrt b * el g m)) with (- (sqrt b * sqrt b) * el g m) by ring.
        rewrite Q. ring.
      + specialize (Eq k ltac:(lia)).
        rewrite (proj2 (Nat.ltb_lt (S k) (S (S m)))) by lia.
        destruct (Nat.eqb_spec (S k) (S m)) as [E|E].
        * assert (k = m) by lia. subst k. rewrite Nat.eqb_refl, Nat.ltb_irrefl in Eq.
          destruct m as [|m].
          -- simpl. pose proof (f_equal (Rmult (- sqrt b)) Eq) as Eq'. simpl in Eq'.
             rewrite Eb. simpl. lra.
          -- rewrite !Eb, Nat.eqb_refl. destruct (Nat.eqb_spec m (S (S m))); [lia|].
             destruct (Nat.eqb_spec (S m) (S (S m))); [lia|].
             replace (sqrt (el beta (S m)) * (- sqrt b * el g m)
                      + el alpha (S m) * (- sqrt b * el g (S m)) + sqrt b * 1)
               with (- sqrt b * (sqrt (el beta (S m)) * el g m + (el alpha (S m) - x0) * el g (S m) + 0 - 1)
                     + x0 * (- sqrt b * el g (S m))) by ring.
             rewrite Eq. ring.
        * rewrite (proj2 (Nat.ltb_lt (S k) (S m))) in Eq by lia.
          destruct (Nat.eqb_spec k m); [lia|].
          destruct k as [|k].
          -- rewrite Eb. destruct (Nat.eqb_spec 1 (S m)); [lia|].
             replace (0 + el alpha 0 * (- sqrt b * el g 0) + sqrt (el beta 1) * (- sqrt b * el g 1))
               with (- sqrt b * (0 + (el alpha 0 - x0) * el g 0 + sqrt (el beta 1) * el g 1)
                     + x0 * (- sqrt b * el g 0)) by ring.
             rewrite Eq. ring.
          -- rewrite !Eb. destruct (Nat.eqb_spec (S k) (S m)); [lia|].
             destruct (Nat.eqb_spec (S (S k)) (S m)); [lia|].
             destruct (Nat.eqb_spec k (S m)); [lia|].
             replace (sqrt (el beta (S k)) * (- sqrt b * el g k) + el alpha (S k) * (- sqrt b * el g (S k))
                      + sqrt (el beta (S (S k))) * (- sqrt b * el g (S (S k))))
               with (- sqrt b * (sqrt (el beta (S k)) * el g k + (el alpha (S k) - x0) * el g (S k)
                      + sqrt (el beta (S (S k))) * el g (S (S k))) + x0 * (- sqrt b * el g (S k))) by ring.
             rewrite Eq. ring.
    - exists (S m). split; [lia|]. rewrite Nat.eqb_refl. lra.
    - rewrite <- Ei. now apply nth_In. }
  split; [lia|]. split; [apply (IN g1); auto|]. split; [apply (IN g2); auto|].
  assert (Pk : forall k, (0 < k <= S m)%nat -> 0 < el (set_last b beta) k).
  { intros k Hk. rewrite Eb. destruct (Nat.eqb_spec k (S m)); [assumption|]. apply Hb. lia. }
  destruct (gauss_products _ _ _ _ _ (S m) HE HG Lr Pk) as (P & _).
  replace (2 * length alpha - 2)%nat with (S (S m + m))%nat by lia.
  apply (exact_by_products L (el alpha) (el beta)); [assumption|]. intros k l Hk Hl'.
  rewrite (coefficients_product L _ _ (length alpha)) by (auto; lia).
  assert (R0 : delta k l * prodn (el beta) k = delta k l * prodn (el (set_last b beta)) k).
  { unfold delta. destruct (Nat.eqb_spec k l) as [Ekl|]; [|ring]. f_equal. subst l.
    assert (Z : forall j, (j <= m)%nat -> prodn (el beta) j = prodn (el (set_last b beta)) j).
    { induction j as [|j IHj]; intros Hj; simpl.
      - rewrite Eb. reflexivity.
      - rewrite IHj, Eb by lia. destruct (Nat.eqb_spec (S j) (S m)); [lia|reflexivity]. }
    apply Z. lia. }
  rewrite R0, <- P by lia. apply functional_rule. intros y.
  assert (M : forall k, (k <= S m)%nat ->
            monic (el (set_last a alpha)) (el (set_last b beta)) k y = monic (el alpha) (el beta) k y).
  { intros j Hj. apply (monic_ext _ _ _ _ (S m)); auto.
    - intros i Hi. rewrite Ea. destruct (Nat.eqb_spec i (S m)); [lia|reflexivity].
    - intros i Hi. rewrite Eb. destruct (Nat.eqb_spec i (S m)); [lia|reflexivity]. }
  now rewrite !M by lia.
Qed.
Print Assumptions C154_lobatto.

(* With a single coefficient there is no room for a prescribed node. *)
Theorem C154_short :
  forall eig sol a b xr xl1 xl2,
  outcome (radau eig sol [a] [b] xr) = Raise IndexError
  /\ outcome (lobatto eig sol [a] [b] xl1 xl2) = Raise IndexError.
Proof. intros. split; reflexivity. Qed.
Print Assumptions C154_short.

Lemma radau_run :
  radau two_eig two_sol [0; 0] [2; 1 / 3] (-1)
  = {| outcome := Ok ([-1; 1 / 3], [2 * (1 / 2) ^ 2; 2 * (3 / 2 * third_root) ^ 2]);
       alpha_after := [0; -1 + 1 / 3]; beta_after := [2; 1 / 3] |}.
Proof.
  assert (S : radau_shift two_sol [0; 0] [2; 1 / 3] (-1) = Ok [0; -1 + 1 / 3]).
  { unfold radau_shift, shifted_rows, stacked, roots. simpl.
    destruct (Rlt_dec 2 0); [lra|]. destruct (Rlt_dec (1 / 3) 0); [lra|]. simpl.
    destruct (Req_EM_T (0 - -1) 0); [lra|]. simpl.
    unfold set_last. simpl. replace (1 / 3 / (0 - -1)) with (1 / 3) by field. reflexivity. }
  unfold radau. rewrite S. f_equal.
  unfold gauss, stacked, roots. simpl.
  destruct (Rlt_dec 2 0); [lra|]. destruct (Rlt_dec (1 / 3) 0); [lra|]. simpl.
  unfold two_eig. destruct (Req_EM_T 0 0); [|lra].
  destruct (Req_EM_T (-1 + 1 / 3) 0); [lra|].
  destruct (Req_EM_T (-1 + 1 / 3) (-1 + 1 / 3)); [|lra].
  destruct (Req_EM_T (sqrt (1 / 3)) third_root) as [|N]; [|exfalso; now apply N].
  reflexivity.
Qed.
Lemma lobatto_run :
  lobatto two_eig two_sol [0; 0] [2; 1 / 3] (-1) 1
  = {| outcome := Ok ([- sqrt 1; sqrt 1], [2 * half_root ^ 2; 2 * half_root ^ 2]);
       alpha_after := [0; 0]; beta_after := [2; 1] |}.
Proof.
  assert (S : lobatto_ends two_sol [0; 0] [2; 1 / 3] (-1) 1 = Ok (0, 1)).
  { unfold lobatto_ends, shifted_rows, stacked, roots. simpl.
    destruct (Rlt_dec 2 0); [lra|]. destruct (Rlt_dec (1 / 3) 0); [lra|]. simpl.
    destruct (Req_EM_T (0 - -1) 0); [lra|]. destruct (Req_EM_T (0 - 1) 0); [lra|]. simpl.
    unfold solve2.
    assert (E1 : 1 / (0 - -1) = 1) by (field; lra). assert (E2 : 1 / (0 - 1) = -1) by (field; lra).
    rewrite E1, E2. destruct (Req_EM_T 1 (-1)); [lra|].
    replace ((1 - -1) / (1 - -1)) with 1 by (field; lra). repeat f_equal; ring. }
  unfold lobatto. rewrite S. f_equal.
  unfold set_last, gauss, stacked, roots. simpl.
  destruct (Rlt_dec 2 0); [lra|]. destruct (Rlt_dec 1 0); [lra|]. simpl.
  destruct (Req_EM_T 0 0); [|lra]. reflexivity.
Qed.

(* Two-point Radau (nodes -1 and 1/3) and Lobatto (the trapezoid rule). *)
Example C154_ex :
  (exists x w, outcome (radau two_eig two_sol [0; 0] [2; 1 / 3] (-1)) = Ok (x, w)
     /\ In (-1) x /\ exact simpson x w 3)
  /\ (exists x w, outcome (lobatto two_eig two_sol [0; 0] [2; 1 / 3] (-1) 1) = Ok (x, w)
     /\ In (-1) x /\ In 1 x /\ exact simpson x w 2).
Proof.
  assert (Hb : forall k, (0 < k < 2)%nat -> 0 < el [2; 1 / 3] k)
    by (intros [|[|k]] Hk; unfold el; simpl; try lra; lia).
  split.
  - assert (G := f_equal outcome radau_run). cbn [outcome] in G.
    eexists _, _. split; [exact G|].
    destruct (C154_radau _ _ _ _ _ _ _ simpson two_eig_sound two_sol_sound G Hb
                simpson_functional legendre2) as (_ & H1 & H2). auto.
  - assert (G := f_equal outcome lobatto_run). cbn [outcome] in G.
    eexists _, _. split; [exact G|].
    destruct (C154_lobatto _ _ _ _ _ _ _ _ simpson two_eig_sound two_sol_sound G Hb
                simpson_functional legendre2) as (_ & H1 & H2 & H3); auto; lra.
Qed.

(* ================================================================= C155 *)
(* The rules do not leave the caller's coefficient arrays as they were: radau
   overwrites alpha, lobatto also beta. *)
Theorem C155_refuted :
  ~ (forall eig sol alpha beta xr,
       eig_sound eig -> sol_sound sol ->
       alpha_after (radau eig sol alpha beta xr) = alpha)
  /\ ~ (forall eig sol alpha beta xl1 xl2,
       eig_sound eig -> sol_sound sol ->
       beta_after (lobatto eig sol alpha beta xl1 xl2) = beta).
Proof.
  split; intros H.
  - specialize (H two_eig two_sol [0; 0] [2; 1 / 3] (-1) two_eig_sound two_sol_sound).
    rewrite radau_run in H. simpl in H. injection H as H. lra.
  - specialize (H two_eig two_sol [0; 0] [2; 1 / 3] (-1) 1 two_eig_sound two_sol_sound).
    rewrite lobatto_run in H. simpl in H. injection H as H. lra.
Qed.
Print Assumptions C155_refuted.

Lemma set_nth_twice {A} k (u v : A) l : set_nth k u (set_nth k v l) = set_nth k u l.
Proof. revert k. induction l as [|h t IH]; intros [|k]; simpl; auto. now rewrite IH. Qed.
Lemma set_last_twice u v l : set_last u (set_last v l) = set_last u l.
Proof. unfold set_last. rewrite set_nth_length. apply set_nth_twice. Qed.
Lemma removelast_set_last (f : R -> R) v l : removelast (map f (set_last v l)) = removelast (map f l).
Proof.
  unfold set_last. induction l as [|h t IH]; [reflexivity|].
  destruct t as [|h' t]; [reflexivity|].
  change (pred (length (h :: h' :: t))) with (S (length t)).
  change (set_nth (S (length t)) v (h :: h' :: t)) with (h :: set_nth (length t) v (h' :: t)).
  change (pred (length (h' :: t))) with (length t) in IH.
  assert (N : exists y ys, set_nth (length t) v (h' :: t) = y :: ys)
    by (destruct t; simpl; eauto).
  destruct N as (y & ys & N). rewrite N in *.
  change (map f (h :: y :: ys)) with (f h :: f y :: map f ys).
  change (removelast (f h :: f y :: map f ys)) with (f h :: removelast (map f (y :: ys))).
  rewrite IH. reflexivity.
Qed.

(* What a caller can rely on: nothing but the last entries changes, radau leaves
   beta alone, a call that raises before computing the new coefficients changes
   nothing, and a further radau on the overwritten array, for the same or another
   node, gives what it gives on the original one. *)
Theorem C155_last_only :
  (forall eig sol alpha beta xr k,
     (S k < length alpha)%nat ->
     el (alpha_after (radau eig sol alpha beta xr)) k = el alpha k)
  /\ (forall eig sol alpha beta xr, beta_after (radau eig sol alpha beta xr) = beta)
  /\ (forall eig sol alpha beta xl1 xl2 k,
     (S k < length alpha)%nat -> length beta = length alpha ->
     el (alpha_after (lobatto eig sol alpha beta xl1 xl2)) k = el alpha k
     /\ el (beta_after (lobatto eig sol alpha beta xl1 xl2)) k = el beta k)
  /\ (forall eig sol alpha beta xr xr',
     outcome (radau eig sol (alpha_after (radau eig sol alpha beta xr)) beta xr')
     = outcome (radau eig sol alpha beta xr')).
Proof.
  split; [|split; [|split]].
  - intros eig sol alpha beta xr k Hk. unfold radau.
    destruct (radau_shift sol alpha beta xr) as [ar|] eqn:E; [|reflexivity]. simpl.
    unfold radau_shift in E.
    destruct (unit_rhs (length alpha) 0); [|discriminate]. simpl in E.
    destruct (py_get beta (-1)); [|discriminate]. simpl in E.
    destruct (unit_rhs (length alpha) _); [|discriminate]. simpl in E.
    destruct (shifted_rows alpha beta xr) as [[[u d] l]|]; [|discriminate]. simpl in E.
    destruct (sol u d l _); [|discriminate]. simpl in E.
    destruct (py_get _ (-1)); [|discriminate]. simpl in E. injection E as <-.
    rewrite set_last_el by lia. destruct (Nat.eqb_spec (pred (length alpha)) k); [lia|reflexivity].
  - intros. unfold radau. destruct (radau_shift sol alpha beta xr); reflexivity.
  - intros eig sol alpha beta xl1 xl2 k Hk Hl. unfold lobatto.
    destruct (lobatto_ends sol alpha beta xl1 xl2) as [[a b]|]; [|split; reflexivity]. simpl.
    rewrite !set_last_el by lia. rewrite Hl.
    destruct (Nat.eqb_spec (pred (length alpha)) k); [lia|split; reflexivity].
  - intros eig sol alpha beta xr xr'. unfold radau at 2.
    destruct (radau_shift sol alpha beta xr) as [ar|] eqn:E; [|reflexivity]. simpl.
    assert (A : exists v, ar = set_last v alpha).
    { unfold radau_shift in E.
      destruct (unit_rhs (length alpha) 0); [|discriminate]. simpl in E.
      destruct (py_get beta (-1)); [|discriminate]. simpl in E.
      destruct (unit_rhs (length alpha) _); [|discriminate]. simpl in E.
      destruct (shifted_rows alpha beta xr) as [[[u d] l]|]; [|discriminate]. simpl in E.
      destruct (sol u d l _); [|discriminate]. simpl in E.
      destruct (py_get _ (-1)); [|discriminate]. simpl in E. injection E as <-. eauto. }
    destruct A as (v & ->).
    assert (SR : shifted_rows (set_last v alpha) beta xr' = shifted_rows alpha beta xr').
    { unfold shifted_rows, stacked. rewrite !map_length, set_last_length.
      destruct (Nat.eqb (length beta) (length alpha)); [|reflexivity].
      destruct (roots beta); [|reflexivity]. simpl. now rewrite removelast_set_last. }
    assert (RS : radau_shift sol (set_last v alpha) beta xr' = radau_shift sol alpha beta xr').
    { unfold radau_shift. rewrite set_last_length, SR.
      destruct (unit_rhs (length alpha) 0); [|reflexivity]. simpl.
      destruct (py_get beta (-1)); [|reflexivity]. simpl.
      destruct (unit_rhs (length alpha) _); [|reflexivity]. simpl.
      destruct (shifted_rows alpha beta xr') as [[[u d] l]|]; [|reflexivity]. simpl.
      destruct (sol u d l _); [|reflexivity]. simpl.
      destruct (py_get _ (-1)); [|reflexivity]. simpl. now rewrite set_last_twice. }
    unfold radau. rewrite RS. destruct (radau_shift sol alpha beta xr'); reflexivity.
Qed.
Print Assumptions C155_last_only.
Example C155_ex :
  alpha_after (radau two_eig two_sol [0; 0] [2; 1 / 3] (-1)) = [0; -1 + 1 / 3].
Proof. now rewrite radau_run. Qed.

(* ================================================================= C156 *)
(* From the 2N modified moments of a weight, mod_chebyshev returns its first N
   recursion coefficients and the squared norms of its polynomials. *)
Theorem C156_coefficients :
  forall L N mom alpham betam,
  (1 <= N)%nat -> functional L -> positive L N ->
  length mom = (2 * N)%nat ->
  (forall m, (m < 2 * N)%nat -> el mom m = L (monic (el alpham) (el betam) m)) ->
  (2 * N - 1 <= length alpham)%nat -> (2 * N - 1 <= length betam)%nat ->
  exists alpha beta normsq,
    mod_chebyshev (Z.of_nat N) mom alpham betam = Ok (alpha, beta, normsq)
    /\ length alpha = N /\ length beta = N /\ length normsq = N
    /\ coefficients_of L (el alpha) (el beta) N
    /\ (forall k, (k < N)%nat -> 0 < el beta k)
    /\ (forall k, (k < N)%nat ->
          el normsq k = L (fun x => monic (el alpha) (el beta) k x * monic (el alpha) (el beta) k x)).
Proof.
  intros L N mom am bm HN HL HP Lm HM Ha Hb.
  unfold mod_chebyshev. destruct (Z.ltb_spec (Z.of_nat N) 1); [lia|].
  rewrite Nat2Z.id, Lm. replace (2 * N / 2)%nat with N
    by (rewrite Nat.mul_comm; symmetry; apply Nat.div_mul; lia).
  rewrite Nat.min_id. destruct (Nat.eqb_spec N 0); [lia|].
  assert (G : forall (l : list R) k, (k < length l)%nat -> py_get l (Z.of_nat k) = Ok (el l k)).
  { intros l k Hk. unfold py_get, py_index.
    rewrite (proj2 (Z.leb_le 0 (Z.of_nat k))) by lia.
    rewrite (proj2 (Z.ltb_lt (Z.of_nat k) (Z.of_nat (length l)))) by lia. simpl.
    rewrite Nat2Z.id. destruct (nth_error l k) eqn:E.
    - f_equal. unfold el. symmetry. now apply nth_error_nth.
    - apply nth_error_None in E. lia. }
  pose proof (G am 0%nat ltac:(lia)) as G0. pose proof (G mom 1%nat ltac:(lia)) as G1.
  pose proof (G mom 0%nat ltac:(lia)) as G2. cbn [Z.of_nat Pos.of_succ_nat] in G0, G1, G2.
  rewrite G0, G1, G2. cbn [rbind]. rewrite Nat.eqb_refl. cbn [negb].
  assert (CR : (cheb_reads N <= 2 * N - 1)%nat).
  { unfold cheb_reads. destruct (Nat.ltb 1 N); lia. }
  destruct (Nat.ltb_spec (length am) (cheb_reads N)); [lia|].
  destruct (Nat.ltb_spec (length bm) (cheb_reads N)); [lia|].
  rewrite Bool.andb_false_r. cbn [orb].
  set (s := fold_left _ _ _).
  assert (I : inv L N am bm (1 + (N - 1)) s).
  { unfold s. apply (inv_loop L N am bm HL HP); [lia|lia|]. now apply inv_init. }
  replace (1 + (N - 1))%nat with N in I by lia.
  pose proof (inv_coefficients L N am bm HL N s (le_n N) I) as C.
  destruct I as [I1 I2 I3 _ _ _ I7 I8].
  exists (c_alpha s), (c_beta s), (c_normsq s).
  split; [reflexivity|]. split; [assumption|]. split; [assumption|]. split; [assumption|].
  split; [exact C|]. split; [|exact I7].
  apply prodn_pos_inv.
  - rewrite I8. pose proof (square_pos L N HL HP (fun _ => 0) (fun _ => 0) 0 ltac:(lia)) as P.
    rewrite (proj1 HL _ (fun _ => 1)) in P by (intros; rewrite monic_0; ring). exact P.
  - intros k Hk. rewrite <- (norms L _ _ N HL C k Hk). now apply (square_pos L N).
Qed.
Print Assumptions C156_coefficients.

(* What it does not accept. *)
Theorem C156_errors :
  forall N mom alpham betam,
  ((N < 1)%Z -> mod_chebyshev N mom alpham betam = Raise ValueError)
  /\ ((1 <= N)%Z -> (length mom < 2)%nat -> mod_chebyshev N mom alpham betam = Raise IndexError)
  /\ ((1 <= N)%Z -> (2 <= length mom)%nat -> (1 <= length alpham)%nat ->
      (Z.of_nat (length mom) > 2 * N)%Z \/ Nat.odd (length mom) = true ->
      mod_chebyshev N mom alpham betam = Raise ValueError)
  /\ ((2 <= N)%Z -> length mom = (2 * Z.to_nat N)%nat ->
      (length alpham < 2 * Z.to_nat N - 1)%nat \/ (length betam < 2 * Z.to_nat N - 1)%nat ->
      mod_chebyshev N mom alpham betam = Raise IndexError).
Proof.
  intros N mom am bm. unfold mod_chebyshev.
  assert (G0 : forall l : list R, (1 <= length l)%nat -> exists v, py_get l 0 = Ok v)
    by (intros [|h t] H; [simpl in H; lia|eexists; reflexivity]).
  assert (G1 : forall l : list R, (2 <= length l)%nat -> exists v, py_get l 1 = Ok v).
  { intros [|h [|h' t]] H; simpl in H; try lia. exists h'. unfold py_get, py_index.
    change (length (h :: h' :: t)) with (S (S (length t))).
    rewrite (proj2 (Z.ltb_lt 1 _)) by lia. reflexivity. }
  split; [|split; [|split]].
  - intros H. destruct (Z.ltb_spec N 1); [reflexivity|lia].
  - intros H H'. destruct (Z.ltb_spec N 1); [lia|].
    replace (length mom / 2)%nat with O by (symmetry; apply Nat.div_small; lia).
    rewrite Nat.min_0_r. reflexivity.
  - intros H H2 H1 Hm. destruct (Z.ltb_spec N 1); [lia|].
    assert (D : (length mom = 2 * (length mom / 2) + length mom mod 2)%nat) by (apply Nat.div_mod; lia).
    pose proof (Nat.mod_upper_bound (length mom) 2 ltac:(lia)) as M.
    destruct (Nat.eqb_spec (Nat.min (Z.to_nat N) (length mom / 2)) 0); [lia|].
    destruct (G0 am H1) as (v0 & ->). destruct (G1 mom H2) as (v1 & ->).
    destruct (G0 mom ltac:(lia)) as (v2 & ->). cbn [rbind].
    destruct (Nat.eqb_spec (length mom) (2 * Nat.min (Z.to_nat N) (length mom / 2))) as [E|]; [|reflexivity].
    exfalso. destruct Hm as [Hm|Hm]; [lia|].
    apply Nat.odd_spec in Hm as (j & Hj). lia.
  - intros H Hm Hs. destruct (Z.ltb_spec N 1); [lia|].
    rewrite Hm. replace (2 * Z.to_nat N / 2)%nat with (Z.to_nat N)
      by (rewrite Nat.mul_comm; symmetry; apply Nat.div_mul; lia).
    rewrite Nat.min_id. destruct (Nat.eqb_spec (Z.to_nat N) 0); [lia|].
    destruct am as [|a0 am'] eqn:Ea; [reflexivity|]. rewrite <- Ea in *.
    destruct (G0 am ltac:(rewrite Ea; simpl; lia)) as (v0 & ->).
    destruct (G1 mom ltac:(lia)) as (v1 & ->). destruct (G0 mom ltac:(lia)) as (v2 & ->).
    cbn [rbind]. rewrite Nat.eqb_refl. cbn [negb].
    unfold cheb_reads. rewrite (proj2 (Nat.ltb_lt 1 (Z.to_nat N))) by lia.
    destruct (Nat.ltb_spec (length am) (2 * Z.to_nat N - 1)); [reflexivity|].
    destruct (Nat.ltb_spec (length bm) (2 * Z.to_nat N - 1)); [reflexivity|]. lia.
Qed.
Print Assumptions C156_errors.

(* Three equal masses at -1, 0, 1, from ordinary moments. *)
Definition three_masses (f : R -> R) : R := f (-1) + f 0 + f 1.
Example C156_ex : exists alpha beta normsq,
  mod_chebyshev 2 [3; 0; 2; 0] [0; 0; 0] [0; 0; 0] = Ok (alpha, beta, normsq)
  /\ coefficients_of three_masses (el alpha) (el beta) 2 /\ 0 < el beta 1.
Proof.
  destruct (C156_coefficients three_masses 2 [3; 0; 2; 0] [0; 0; 0] [0; 0; 0])
    as (al & be & no & H & _ & _ & _ & C & P & _); try (simpl; lia).
  - split; unfold three_masses; intros; [now rewrite !H|ring].
  - intros [|[|d]] f Hd (c & Hf); [| |lia]; unfold three_masses; rewrite !Hf; simpl; nra.
  - intros [|[|[|[|m]]]] Hm; try lia; unfold three_masses, monic, el; simpl; ring.
  - exists al, be, no. split; [exact H|]. split; [exact C|]. apply P. lia.
Qed.
