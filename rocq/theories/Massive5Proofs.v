(* Change of the unit of momentum, and the area of the Dalitz region *)
From Coq Require Import Reals Lra Psatz.
From Coquelicot Require Import Coquelicot.
From Verif Require Import Base FunctionalModel GridsModel DsModel BoundsModel BoundsProofs Integrate3Model Integrate4Model ScaleProofs Decay4Proofs Decay4Props DalitzSpec DalitzProofs MassiveSpec MassiveProofs Massive2Proofs Massive3Proofs Massive4Proofs.
Open Scope R_scope.

Section scaling.
Variables (ms : nat -> R) (c : R).
Hypothesis Hc : 0 < c.
Let cms n := c * ms n.
Lemma share_scale m e1 e2 i : share (c * m) (c * e1) (c * e2) i = c * share m e1 e2 i.
Proof. unfold share. destruct i as [|[|[|i]]]; ring. Qed.
Lemma recoil_scale m mi e : recoil (c * m) (c * mi) (c * e) = c ^ 2 * recoil m mi e.
Proof. unfold recoil. ring. Qed.
Lemma four_dot_scale e1 e2 i j : four_dot cms (share (cms 0%nat) (c * e1) (c * e2)) i j = c ^ 2 * four_dot ms (share (ms 0%nat) e1 e2) i j.
Proof.
  unfold four_dot, cms. rewrite !share_scale. destruct (i =? 0)%nat; [ring|]. destruct (j =? 0)%nat; [ring|]. rewrite recoil_scale. field.
Qed.
Lemma amplitude_scale Ms e1 e2 : amplitude_at cms Ms (c * e1) (c * e2) = c ^ 4 * amplitude_at ms Ms e1 e2.
Proof.
  induction Ms as [|A Ms IH]; [cbn; ring|]. cbn [amplitude_at fold_right]. fold (amplitude_at cms Ms (c * e1) (c * e2)) (amplitude_at ms Ms e1 e2). rewrite IH.
  destruct (order A) as [[[i j] k] l]. cbv zeta. rewrite !four_dot_scale. unfold cms. ring.
Qed.
Lemma e1_max_scale : ms 0%nat <> 0 -> e1_max cms = c * e1_max ms.
Proof. intros H. unfold e1_max, cms. field. lra. Qed.
Lemma kallen_scale x y z : kallen (c ^ 2 * x) (c ^ 2 * y) (c ^ 2 * z) = (c ^ 2) ^ 2 * kallen x y z.
Proof. unfold kallen. ring. Qed.
Lemma e2_mid_scale e1 : e2_mid cms (c * e1) = c * e2_mid ms e1.
Proof.
  unfold e2_mid. cbv zeta. unfold cms. rewrite recoil_scale. set (s := recoil _ _ _). destruct (Req_dec s 0) as [->|N].
  - rewrite !Rmult_0_r. unfold Rdiv. rewrite Rinv_0. ring.
  - field. split; lra.
Qed.
Lemma e2_half_scale e1 : e2_half cms (c * e1) = c * e2_half ms e1.
Proof.
  unfold e2_half. cbv zeta. unfold cms. rewrite recoil_scale. set (s := recoil _ _ _).
  replace ((c * e1) ^ 2 - (c * ms 1%nat) ^ 2) with (c ^ 2 * (e1 ^ 2 - ms 1%nat ^ 2)) by ring.
  rewrite !Rpow_mult_distr, kallen_scale. assert (Q : 0 <= c ^ 2) by apply pow2_ge_0. assert (Q' : 0 <= (c ^ 2) ^ 2) by apply pow2_ge_0.
  rewrite !sqrt_mult_alt by assumption. rewrite !sqrt_pow2 by lra. destruct (Req_dec s 0) as [->|N].
  - rewrite !Rmult_0_r. unfold Rdiv. rewrite Rinv_0. ring.
  - field. split; lra.
Qed.
Lemma stretch (f : R -> R) a b l : is_RInt f a b l -> is_RInt (fun y => f (y / c)) (c * a) (c * b) (c * l).
Proof.
  intros H. assert (E : forall x, / c * (c * x) + 0 = x) by (intros; field; lra).
  pose proof (is_RInt_comp_lin (V := R_NormedModule) f (/ c) 0 (c * a) (c * b) l) as C. rewrite !E in C. specialize (C H).
  apply (is_RInt_scal (V := R_NormedModule) _ _ _ c) in C. eapply is_RInt_ext; [|exact C].
  intros x _. unfold scal; cbn; unfold mult; cbn. replace (/ c * x + 0) with (x / c) by (unfold Rdiv; ring). field. lra.
Qed.
Lemma region_scale f f' k I : ms 0%nat <> 0 -> (forall x y, f' (c * x) (c * y) = k * f x y) -> region_is ms f I -> region_is cms f' (k * c ^ 2 * I).
Proof.
  intros H0 HF (g & HG & HI). exists (fun e => k * c * g (e / c)). unfold cms at 1. rewrite e1_max_scale by exact H0.
  assert (E : forall x, c * (x / c) = x) by (intros; field; lra). split.
  - intros e1 He. fold cms. rewrite <- (E e1) at 2 3 4 5. rewrite e2_mid_scale, e2_half_scale.
    set (x := e1 / c). assert (Hx : ms 1%nat < x < e1_max ms). { unfold x. split; [apply Rlt_div_r; lra|apply Rlt_div_l; lra]. }
    replace (c * e2_mid ms x - c * e2_half ms x) with (c * (e2_mid ms x - e2_half ms x)) by ring.
    replace (c * e2_mid ms x + c * e2_half ms x) with (c * (e2_mid ms x + e2_half ms x)) by ring.
    replace (k * c * g x) with (k * (c * g x)) by ring.
    eapply is_RInt_ext; [|exact (is_RInt_scal (V := R_NormedModule) _ _ _ k _ (stretch _ _ _ _ (HG x Hx)))].
    intros y _. cbv beta. unfold scal; cbn; unfold mult; cbn. rewrite <- HF. unfold x. now rewrite !E.
  - replace (k * c ^ 2 * I) with (k * c * (c * I)) by ring. unfold cms.
    exact (is_RInt_scal (V := R_NormedModule) _ _ _ (k * c) _ (stretch _ _ _ _ HI)).
Qed.
End scaling.

(* with a constant amplitude the integral is the area of the Dalitz plot *)
Lemma region_area ms k A : (forall n, 0 <= ms n) -> ms 1%nat + ms 2%nat + ms 3%nat < ms 0%nat ->
  dalitz_area_is (ms 0%nat) (ms 2%nat) (ms 3%nat) (ms 1%nat) A -> region_is ms (fun _ _ => k) (k * A / (4 * ms 0%nat ^ 2)).
Proof.
  intros Hp Hs HA. pose proof (m0_pos ms Hp Hs) as P0. pose proof (e1_range ms Hp Hs) as ER. pose proof (Hp 1%nat) as M1.
  exists (fun e1 => 2 * e2_half ms e1 * k). split.
  - intros e1 _. pose proof (is_RInt_const (V := R_NormedModule) (e2_mid ms e1 - e2_half ms e1) (e2_mid ms e1 + e2_half ms e1) k) as C.
    unfold scal in C; cbn in C; unfold mult in C; cbn in C. replace (2 * e2_half ms e1 * k) with ((e2_mid ms e1 + e2_half ms e1 - (e2_mid ms e1 - e2_half ms e1)) * k) by ring. exact C.
  - unfold dalitz_area_is in HA. set (m := ms 0%nat) in *.
    pose proof (is_RInt_comp_lin (V := R_NormedModule) (dalitz_width m (ms 2%nat) (ms 3%nat) (ms 1%nat)) (- (2 * m)) (m ^ 2 + ms 1%nat ^ 2) (e1_max ms) (ms 1%nat) A) as C.
    replace (- (2 * m) * e1_max ms + (m ^ 2 + ms 1%nat ^ 2)) with ((ms 2%nat + ms 3%nat) ^ 2) in C by (unfold e1_max; fold m; field; lra).
    replace (- (2 * m) * ms 1%nat + (m ^ 2 + ms 1%nat ^ 2)) with ((m - ms 1%nat) ^ 2) in C by ring.
    specialize (C HA). apply is_RInt_swap in C. apply (is_RInt_scal (V := R_NormedModule) _ _ _ (k / (4 * m ^ 2))) in C.
    match type of C with is_RInt _ _ _ ?x => replace (k * A / (4 * m ^ 2)) with (- x) by (unfold scal, opp; cbn; unfold mult; cbn; field; lra) end.
    apply (is_RInt_opp (V := R_NormedModule)) in C. eapply is_RInt_ext; [|exact C].
    intros e1 He. rewrite Rmin_left, Rmax_right in He by lra. unfold scal, opp; cbn; unfold mult; cbn.
    replace (- (2 * m) * e1 + (m * (m * 1) + ms 1%nat * (ms 1%nat * 1))) with (recoil m (ms 1%nat) e1) by (unfold recoil; ring).
    pose proof (s_pos ms Hp Hs e1 (proj2 He)) as S. fold m in S. unfold dalitz_width, e2_half. cbv zeta. fold m. set (s := recoil m (ms 1%nat) e1) in *.
    replace (kallen (m ^ 2) s (ms 1%nat ^ 2)) with ((2 * m) ^ 2 * (e1 ^ 2 - ms 1%nat ^ 2)) by (unfold kallen, s, recoil; ring).
    assert (ms 1%nat ^ 2 < e1 ^ 2) by (apply sqr_lt'; lra).
    rewrite Rmult_assoc, sqrt_mult_alt by apply pow2_ge_0. rewrite sqrt_pow2 by lra. rewrite sqrt_mult_alt by lra.
    field. split; lra.
Qed.
Lemma amplitude_compiled ms G_F Ms e1 e2 : amplitude_at ms (map (compiled_M G_F) Ms) e1 e2 = amplitude_at ms Ms e1 e2 / unit4 G_F.
Proof.
  induction Ms as [|A Ms IH]; [cbn; unfold Rdiv; ring|]. cbn [map amplitude_at fold_right]. fold (amplitude_at ms (map (compiled_M G_F) Ms) e1 e2) (amplitude_at ms Ms e1 e2). rewrite IH.
  cbn [compiled_M order K1 K2]. destruct (order A) as [[[i j] k] l]. cbv zeta. unfold Rdiv. ring.
Qed.
