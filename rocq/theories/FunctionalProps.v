(* C50-C54, C65: the collision functional. The participants are the list
   l :: ls (the particle whose distribution evolves first), their occupations
   x :: f; any number of participants, so three and four in particular. *)
From Coq Require Import Reals Lra Psatz Permutation.
From Verif Require Import Base FunctionalModel FunctionalProofs.
Open Scope R_scope.

Definition ex_legs : list leg := [mkLeg (-1) 1; mkLeg (-1) (-1); mkLeg 1 1; mkLeg 1 (-1)].

(* the specification on two-to-two and one-to-two reactions *)
Example gain_loss_two_to_two : forall e1 e2 e3 e4 a b c d,
  let l := combine [mkLeg (-1) e1; mkLeg (-1) e2; mkLeg 1 e3; mkLeg 1 e4] [a; b; c; d] in
  gain l = c * d * (1 - e1 * a) * (1 - e2 * b) /\ loss l = a * b * (1 - e3 * c) * (1 - e4 * d).
Proof. intros. unfold gain, loss, l. cbn. split; ring. Qed.
Example gain_loss_decay : forall e1 e2 e3 a b c,
  let l := combine [mkLeg (-1) e1; mkLeg 1 e2; mkLeg 1 e3] [a; b; c] in
  gain l = b * c * (1 - e1 * a) /\ loss l = a * (1 - e2 * b) * (1 - e3 * c).
Proof. intros. unfold gain, loss, l. cbn. split; ring. Qed.

(* C50 *)
Theorem C50_full_is_gain_minus_loss : forall l x ls f, length ls = length f -> nonneg f -> side l = (-1)%Z ->
  functional Full (l :: ls) (x :: f) = Ok (gain (combine (l :: ls) (x :: f)) - loss (combine (l :: ls) (x :: f))).
Proof. exact full_value. Qed.
Print Assumptions C50_full_is_gain_minus_loss.
Theorem C50_linearisation : forall l x ls f, length ls = length f -> nonneg f ->
  exists a b, (forall y, functional F1 (l :: ls) (y :: f) = Ok a /\ functional Ff (l :: ls) (y :: f) = Ok b) /\
  functional Full (l :: ls) (x :: f) = Ok (a + x * b).
Proof.
  intros l x ls f HL Hf. eexists; eexists. split.
  - intros y. split; [apply F1_value|apply Ff_value]; auto.
  - pose proof (F1_value l x ls f HL Hf) as H1. pose proof (Ff_value l x ls f HL Hf) as H2.
    unfold functional in *. rewrite H1. cbn [rbind]. rewrite H2. reflexivity.
Qed.
Print Assumptions C50_linearisation.
Theorem C50_naive_split : forall l x ls f, length ls = length f -> 0 <= x -> nonneg f -> side l = (-1)%Z ->
  exists a b, F_A (l :: ls) (x :: f) (-1) = Ok a /\ F_B (l :: ls) (x :: f) (-1) = Ok b /\
  functional Full (l :: ls) (x :: f) = Ok (b + a).
Proof.
  intros l x ls f HL Hx Hf Hs. unfold F_A, F_B.
  assert (HN : nonneg (x :: f)) by (constructor; auto).
  do 2 eexists. split; [apply F_loop_noskip_m1; auto; cbn; lia|]. split; [apply F_loop_noskip_m1; auto; cbn; lia|].
  rewrite full_value by auto. f_equal. unfold gain, loss. ring.
Qed.
Print Assumptions C50_naive_split.
Example C50_ex : functional Full ex_legs [1/4; 2; 1/3; 5] = Ok ((1/3) * 5 * (3/4) * 3 - (1/4) * 2 * (2/3) * 6).
Proof.
  unfold ex_legs. rewrite full_value; [|reflexivity|repeat constructor; lra|reflexivity].
  f_equal. unfold gain, loss. cbn. lra.
Qed.

(* C51: equilibrium occupations 1/(exp x_i + eta_i) with x_i = (E_i - mu_i)/T *)
Theorem C51_detailed_balance : forall l x ls xs,
  length ls = length xs -> side l = (-1)%Z -> sides_ok (l :: ls) ->
  Forall2 (fun l y => 0 < exp y + eta l) (l :: ls) (x :: xs) ->
  charge (l :: ls) (x :: xs) = 0 ->
  functional Full (l :: ls) (eq_occ (l :: ls) (x :: xs)) = Ok 0.
Proof.
  intros l x ls xs HL Hs Hso HF HC.
  destruct (gain_loss_equil (l :: ls) (x :: xs)) as (P & u & v & HP & HG & HLo & HE); auto; [cbn; lia|].
  pose proof (pos_nonneg _ (eq_occ_pos _ _ HF)) as HN.
  unfold eq_occ in HN, HG, HLo |- *. cbn [combine map] in HN, HG, HLo |- *. inversion HN as [|? ? HN1 HN2]; subst.
  rewrite full_value; [| |exact HN2|exact Hs].
  - cbn [combine]. rewrite HG, HLo. f_equal. assert (u = v) as -> by lra. ring.
  - rewrite map_length, combine_length. lia.
Qed.
Print Assumptions C51_detailed_balance.
Theorem C51_sign_of_collision_term : forall l x ls f,
  length ls = length f -> side l = (-1)%Z -> sides_ok (l :: ls) ->
  Forall2 (fun l v => 0 < v /\ 0 < 1 / v - eta l) (l :: ls) (x :: f) ->
  exists r, functional Full (l :: ls) (x :: f) = Ok r /\
  let affinity := charge (l :: ls) (map (fun lv => xi (snd lv) (eta (fst lv))) (combine (l :: ls) (x :: f))) in
  (r = 0 <-> affinity = 0) /\ (0 < r <-> affinity < 0) /\ (r < 0 <-> 0 < affinity).
Proof.
  intros l x ls f HL Hs Hso HF.
  set (xs := map (fun lv => xi (snd lv) (eta (fst lv))) (combine (l :: ls) (x :: f))).
  assert (HLx : length (l :: ls) = length xs) by (unfold xs; rewrite map_length, combine_length; cbn; lia).
  assert (HFx : Forall2 (fun l y => 0 < exp y + eta l) (l :: ls) xs).
  { unfold xs. clear HLx xs Hs Hso. revert HF HL. generalize (l :: ls) as L, (x :: f) as V. intros L V HF _.
    induction HF as [|a v L V (A & B) Hr IH]; cbn; constructor; auto. cbn. unfold xi. rewrite exp_ln by exact B.
    assert (0 < 1 / v) by (apply Rdiv_lt_0_compat; lra). lra. }
  destruct (gain_loss_equil (l :: ls) xs) as (P & u & v & HP & HG & HLo & HE); auto.
  assert (HEQ : eq_occ (l :: ls) xs = x :: f) by (apply eq_occ_xi; [cbn; lia|exact HF]).
  rewrite HEQ in HG, HLo. eexists. split.
  - apply full_value; [exact HL| |exact Hs].
    inversion HF as [|? ? ? ? _ Hr]; subst. clear -Hr. induction Hr as [|a b la lb (A & B) Hr IH]; constructor; auto. lra.
  - cbn zeta. fold xs. rewrite HG, HLo, HE.
    pose proof (exp_le_iff u v) as I1. pose proof (exp_le_iff v u) as I2.
    destruct (Rtotal_order u v) as [O|[O|O]].
    + assert (exp u < exp v) by (now apply exp_increasing). split; [|split]; split; intros; nra.
    + subst. split; [|split]; split; intros; nra.
    + assert (exp v < exp u) by (now apply exp_increasing). split; [|split]; split; intros; nra.
Qed.
Print Assumptions C51_sign_of_collision_term.
Example C51_ex : charge ex_legs [1; 2; 2; 1] = 0 /\ sides_ok ex_legs /\
  Forall2 (fun l y => 0 < exp y + eta l) ex_legs [1; 2; 2; 1].
Proof.
  split; [unfold charge; cbn; lra|]. split; [do 4 (constructor; [cbn; auto|]); constructor|].
  pose proof (exp_pos 1). pose proof (exp_pos 2). pose proof (exp_ineq1 1 ltac:(lra)). pose proof (exp_ineq1 2 ltac:(lra)).
  do 4 (constructor; [cbn; lra|]). constructor.
Qed.

(* C52; admissible (l, v): 0 <= v and 0 <= 1 - eta v (for fermions v <= 1) *)
Theorem C52_empty_state_is_not_depleted : forall l ls f, length ls = length f ->
  Forall admissible (combine ls f) -> exists r, functional Full (l :: ls) (0 :: f) = Ok r /\ 0 <= r.
Proof.
  intros l ls f HL HA. pose proof (admissible_nonneg _ _ HL HA) as HN.
  pose proof (F1_value l 0 ls f HL HN) as H1. pose proof (Ff_value l 0 ls f HL HN) as H2.
  eexists. split.
  - unfold functional in *. rewrite H1. cbn [rbind]. rewrite H2. reflexivity.
  - cbn [f0]. rewrite Rmult_0_l, Rplus_0_r. now apply prod_admissible.
Qed.
Print Assumptions C52_empty_state_is_not_depleted.
Theorem C52_full_fermion_state_is_not_filled : forall l ls f, length ls = length f -> eta l = 1 ->
  Forall admissible (combine ls f) -> exists r, functional Full (l :: ls) (1 :: f) = Ok r /\ r <= 0.
Proof.
  intros l ls f HL He HA. pose proof (admissible_nonneg _ _ HL HA) as HN.
  pose proof (F1_value l 1 ls f HL HN) as H1. pose proof (Ff_value l 1 ls f HL HN) as H2.
  eexists. split.
  - unfold functional in *. rewrite H1. cbn [rbind]. rewrite H2. reflexivity.
  - cbn [f0]. rewrite He. pose proof (prod_admissible (-1) _ HA). unfold loss. lra.
Qed.
Print Assumptions C52_full_fermion_state_is_not_filled.
Theorem C52_relaxation_is_damping : forall l x ls f, length ls = length f -> eta l = 1 ->
  Forall admissible (combine ls f) -> exists r, functional Ff (l :: ls) (x :: f) = Ok r /\ r <= 0.
Proof.
  intros l x ls f HL He HA. pose proof (admissible_nonneg _ _ HL HA) as HN.
  eexists. split; [now apply Ff_value|]. rewrite He. pose proof (prod_admissible (-1) _ HA). pose proof (prod_admissible 1 _ HA).
  unfold loss, gain. lra.
Qed.
Print Assumptions C52_relaxation_is_damping.
Example C52_ex : Forall admissible (combine (tl ex_legs) [2; 1; 5]).
Proof. do 3 (constructor; [split; cbn; lra|]). constructor. Qed.

(* C53 *)
Theorem C53_negative_occupations_rejected : forall l x ls f, length ls = length f -> Exists (fun v => v < 0) f ->
  forall k, In k [Full; F1; Ff; Creation; Decay] -> functional k (l :: ls) (x :: f) = Raise RuntimeError.
Proof.
  intros l x ls f HL HE k Hk.
  assert (H : forall own temp, F_loop own 0 0 (l :: ls) (x :: f) temp = Raise RuntimeError).
  { intros. cbn [F_loop Z.eqb]. apply F_loop_negative; auto. lia. }
  unfold functional, F_1, F_f, F_decay, F_creation, F_A, F_B.
  repeat (destruct Hk as [<-|Hk]); try contradiction; rewrite ?H; try reflexivity.
  apply F_loop_negative; [cbn; lia|lia|]. now right.
Qed.
Print Assumptions C53_negative_occupations_rejected.
Theorem C53_own_occupation_checked_only_by_creation : forall l x ls f, length ls = length f -> nonneg f -> x < 0 ->
  functional Creation (l :: ls) (x :: f) = Raise RuntimeError /\
  forall k, k <> Creation -> exists r, functional k (l :: ls) (x :: f) = Ok r.
Proof.
  intros l x ls f HL Hf Hx. split.
  - apply F_loop_negative; [cbn; lia|lia|now left].
  - pose proof (F1_value l x ls f HL Hf) as H1. pose proof (Ff_value l x ls f HL Hf) as H2. pose proof (decay_value l x ls f HL Hf) as H3.
    intros k Hk. unfold functional in *. destruct k; try congruence; rewrite ?H1; cbn [rbind]; rewrite ?H2, ?H3; cbn [rbind]; try (eexists; reflexivity).
Qed.
Print Assumptions C53_own_occupation_checked_only_by_creation.
Theorem C53_vacuum_kinds_never_fail : forall ls f, forall k, In k [Full_vacuum; F1_vacuum; Ff_vacuum] ->
  exists r, functional k ls f = Ok r.
Proof. intros ls f k Hk. repeat (destruct Hk as [<-|Hk]); try contradiction; eexists; reflexivity. Qed.
Print Assumptions C53_vacuum_kinds_never_fail.
Example C53_ex : Exists (fun v => v < 0) [1; -1; 2]. Proof. right. left. lra. Qed.

(* C54: a reaction seen from a participant of the other side *)
Theorem C54_forward_and_backward_cancel : forall l x ls f l' x' ls' f',
  length ls = length f -> length ls' = length f' -> nonneg f -> nonneg f' ->
  side l = (-1)%Z -> side l' = (-1)%Z ->
  Permutation (combine (l' :: ls') (x' :: f')) (map (fun a => (flip (fst a), snd a)) (combine (l :: ls) (x :: f))) ->
  exists r, functional Full (l :: ls) (x :: f) = Ok r /\ functional Full (l' :: ls') (x' :: f') = Ok (- r).
Proof.
  intros l x ls f l' x' ls' f' HL HL' Hf Hf' Hs Hs' HP. eexists. split; [now apply full_value|].
  rewrite full_value by auto. f_equal. unfold gain, loss.
  rewrite !(prod_perm _ _ _ HP), !prod_flip. cbn [Z.opp]. ring.
Qed.
Print Assumptions C54_forward_and_backward_cancel.
Theorem C54_same_side_participants_agree : forall l x ls f l' x' ls' f',
  length ls = length f -> length ls' = length f' -> nonneg f -> nonneg f' ->
  side l = (-1)%Z -> side l' = (-1)%Z ->
  Permutation (combine (l' :: ls') (x' :: f')) (combine (l :: ls) (x :: f)) ->
  functional Full (l :: ls) (x :: f) = functional Full (l' :: ls') (x' :: f').
Proof.
  intros l x ls f l' x' ls' f' HL HL' Hf Hf' Hs Hs' HP. rewrite !full_value by auto. f_equal. unfold gain, loss.
  now rewrite !(prod_perm _ _ _ HP).
Qed.
Print Assumptions C54_same_side_participants_agree.
Example C54_ex : Permutation (combine [mkLeg (-1) (-1); mkLeg (-1) 1; mkLeg 1 1; mkLeg 1 (-1)] [5; 1/3; 1/4; 2])
  (map (fun a => (flip (fst a), snd a)) (combine ex_legs [1/4; 2; 1/3; 5])).
Proof.
  cbn. unfold flip. cbn.
  apply perm_trans with [(mkLeg (-1) 1, 1/3); (mkLeg (-1) (-1), 5); (mkLeg 1 1, 1/4); (mkLeg 1 (-1), 2)]; [apply perm_swap|].
  change [(mkLeg (-1) 1, 1/3); (mkLeg (-1) (-1), 5); (mkLeg 1 1, 1/4); (mkLeg 1 (-1), 2)]
    with ([(mkLeg (-1) 1, 1/3); (mkLeg (-1) (-1), 5)] ++ [(mkLeg 1 1, 1/4); (mkLeg 1 (-1), 2)]).
  eapply perm_trans; [apply Permutation_app_comm|]. reflexivity.
Qed.

(* C65 *)
Theorem C65_compiled_kinds : forall ls f a b av bv,
  functional F1 ls f = Ok a -> functional Ff ls f = Ok b ->
  functional F1_vacuum ls f = Ok av -> functional Ff_vacuum ls f = Ok bv ->
  functional Full ls f = Ok (a + f0 f * b) /\ functional Full_vacuum ls f = Ok (av + f0 f * bv) /\
  av = last f 0 /\ bv = -1.
Proof.
  intros ls f a b av bv H1 H2 H3 H4. unfold functional in *. rewrite H1. cbn [rbind]. rewrite H2. cbn [rbind].
  cbn in H3, H4. injection H3 as <-. injection H4 as <-. repeat split; reflexivity.
Qed.
Print Assumptions C65_compiled_kinds.
(* at the Python level the requested kind Full_vacuum is replaced by the
   ordinary functional. I k is any linear integral of the functional; here the
   value at a single quadrature point. *)
Theorem C65_vacuum_kind_honoured_refuted : exists ls f,
  let I k := match functional k ls f with Ok r => r | Raise _ => 0 end in
  integrate4 Full_vacuum false (f0 f) I <> Pair (I Full_vacuum) (I Ff_vacuum) /\
  integrate3 Full_vacuum false (f0 f) I <> Pair (I Full_vacuum) (I Ff_vacuum) /\
  length ls = 3%nat /\ length f = 3%nat /\ nonneg f.
Proof.
  exists [mkLeg (-1) 1; mkLeg 1 1; mkLeg 1 1], [1/2; 0; 1/2]. cbn zeta.
  assert (HN : nonneg [0; 1/2]) by (repeat constructor; lra).
  assert (HF : functional Ff [mkLeg (-1) 1; mkLeg 1 1; mkLeg 1 1] [1/2; 0; 1/2] = Ok (-(1/2))).
  { rewrite Ff_value by auto. unfold loss, gain. cbn. f_equal. lra. }
  unfold integrate4, integrate3. rewrite HF.
  split; [|split; [|split; [reflexivity|split; [reflexivity|constructor; [lra|exact HN]]]]].
  - intros X. injection X as _ X. cbn in X. lra.
  - intros X. injection X as _ X. cbn in X. lra.
Qed.
Print Assumptions C65_vacuum_kind_honoured_refuted.
Theorem C65_full_kind_honoured : forall fast f I, I Full = I F1 + f * I Ff ->
  (fast = false -> integrate4 Full fast f I = Pair (I Full) (I Ff) /\ integrate3 Full fast f I = Pair (I Full) (I Ff)) /\
  (fast = false -> integrate4 Full_vacuum fast f I = integrate4 Full fast f I /\ integrate3 Full_vacuum fast f I = integrate3 Full fast f I) /\
  (fast = true -> integrate4 Full fast f I = One (I Full)).
Proof. intros fast f I HI. split; [|split]; intros ->; cbn; try rewrite HI; try split; reflexivity. Qed.
Print Assumptions C65_full_kind_honoured.
