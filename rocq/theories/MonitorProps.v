(* C176: what the monitors of particles show *)
From Coq Require Import Reals Lra Psatz Lia.
From Coquelicot Require Import Coquelicot.
From Verif Require Import Base ThermoModel ThermoProofs MonitorModel RadiationProps.
Open Scope R_scope.

Lemma mconst_pos p : 0 < dof p -> 0 < mconst p.
Proof.
  intros H. unfold mconst. pose proof PI_RGT_0. assert (0 < PI ^ 2) by (apply pow_lt; assumption).
  destruct (fermion p); nra.
Qed.
Lemma rad_mconst p T : rad_energy_density p T = mconst p * T ^ 4.
Proof. unfold rad_energy_density, mconst. destruct (fermion p); field. Qed.
Lemma feq_pos p a aT grid : 0 <= tmass p -> 0 < a -> 0 < aT -> Forall (Rlt 0) grid -> Forall (Rlt 0) (feq p a aT grid).
Proof.
  intros Hm Ha HT H. apply Forall_forall. intros v Hv. unfold feq in Hv. apply in_map_iff in Hv as (y & <- & Hy).
  assert (Hy0 : 0 < y) by (exact (proj1 (Forall_forall _ _) H y Hy)).
  assert (E : 0 < cenergy p y (tmass p * a) / aT).
  { apply Rdiv_lt_0_compat; [|exact HT]. unfold cenergy. destruct (Rlt_dec 0 (tmass p)).
    - apply sqrt_lt_R0. assert (0 < y * y) by nra. assert (0 <= (tmass p * a) * (tmass p * a)) by nra. cbn [pow]. lra.
    - rewrite Rabs_right; lra. }
  pose proof (exp_ineq1_le (cenergy p y (tmass p * a) / aT)). pose proof (exp_pos (cenergy p y (tmass p * a) / aT)).
  apply Rdiv_lt_0_compat; [lra|]. unfold eta. destruct (fermion p); lra.
Qed.
Lemma ratio_self l : Forall (Rlt 0) l -> map (fun q => fst q / snd q) (combine l l) = map (fun _ => 1) l.
Proof.
  intros H. induction H as [|x l Hx _ IH]; [reflexivity|]. cbn [combine map fst snd]. rewrite IH. f_equal. field. lra.
Qed.

(* A relativistic species with the equilibrium distribution of its own
   temperature is shown as rho/rho_eq = 1, f/f_eq = 1 by each of the three
   monitors of radiation, whether or not it is still in equilibrium; the
   temperature in the title is its own. *)
Theorem C176_equilibrium p in_eq a aT grid : 0 <= tmass p -> 0 < dof p -> 0 < a -> 0 < aT -> Forall (Rlt 0) grid ->
  let T := aT / a in let rho := rad_energy_density p T in let f := feq p a aT grid in
  rad_plot in_eq f (rad_compare p rho a aT grid) = (1, map (fun _ => 1) grid) /\
  rad_plot in_eq f (eq_compare p rho T a aT grid) = (1, map (fun _ => 1) grid) /\
  rad_plot in_eq f (eff_compare p rho a aT grid) = (1, map (fun _ => 1) grid) /\
  T_eff p rho = T.
Proof.
  intros Hm Hd Ha HT HG. cbv zeta. pose proof (mconst_pos p Hd) as HC.
  assert (Ht : 0 < aT / a) by (apply Rdiv_lt_0_compat; lra). assert (Ht4 : 0 < (aT / a) ^ 4) by (apply pow_lt; exact Ht).
  assert (TE : T_eff p (rad_energy_density p (aT / a)) = aT / a).
  { unfold T_eff. rewrite rad_mconst. replace (mconst p * (aT / a) ^ 4 / mconst p) with ((aT / a) ^ 4) by (field; lra).
    rewrite <- Rpower_pow by exact Ht. rewrite Rpower_mult. replace (INR 4 * (1 / 4)) with 1 by (cbn; lra). apply Rpower_1. exact Ht. }
  assert (EE : forall v, v = 1 -> rad_plot in_eq (feq p a aT grid) (v, feq p a aT grid) = (1, map (fun _ => 1) grid)).
  { intros v ->. unfold rad_plot. cbn [fst snd]. rewrite ratio_self by (apply feq_pos; assumption).
    assert (Q : map (fun _ => 1) (feq p a aT grid) = map (fun _ => 1) grid) by (unfold feq; rewrite map_map; reflexivity).
    rewrite Q. destruct in_eq; reflexivity. }
  assert (CC : forall t4, dof p * PI ^ 2 / 30 * t4 * (if fermion p then 7 / 8 else 1) = mconst p * t4) by (intros; unfold mconst; ring).
  repeat split.
  - unfold rad_compare. rewrite CC, rad_mconst. apply EE. field. lra.
  - unfold eq_compare. rewrite CC, rad_mconst. apply EE. field. lra.
  - unfold eff_compare. rewrite TE. replace (aT / a * a) with aT by (field; lra). rewrite rad_mconst. apply EE. field. lra.
  - exact TE.
Qed.
Print Assumptions C176_equilibrium.

(* Out of equilibrium: the point of the first monitor is the ratio of the
   energy density to that of radiation at the particle's own temperature, the
   second at the temperature of the plasma, and T_eff is the one temperature at
   which radiation has the energy density of the particle; the third monitor
   shows the fourth power of T_eff in units of the particle's temperature. *)
Theorem C176_ratio p rho a aT T grid f : 0 < dof p -> 0 < rho -> 0 < a -> 0 < aT -> 0 < T ->
  fst (rad_plot false f (rad_compare p rho a aT grid)) * rad_energy_density p (aT / a) = rho /\
  fst (rad_plot false f (eq_compare p rho T a aT grid)) * rad_energy_density p T = rho /\
  rad_energy_density p (T_eff p rho) = rho /\ 0 < T_eff p rho /\
  (forall t, 0 < t -> rad_energy_density p t = rho -> t = T_eff p rho) /\
  fst (rad_plot false f (eff_compare p rho a aT grid)) = (T_eff p rho / (aT / a)) ^ 4 /\
  fst (rad_plot false f (eff_compare p rho a aT grid)) = fst (rad_plot false f (rad_compare p rho a aT grid)).
Proof.
  intros Hd Hr Ha HT Ht. pose proof (mconst_pos p Hd) as HC.
  assert (H1 : 0 < aT / a) by (apply Rdiv_lt_0_compat; lra).
  assert (H4 : 0 < (aT / a) ^ 4) by (apply pow_lt; exact H1). assert (H5 : 0 < T ^ 4) by (apply pow_lt; exact Ht).
  assert (CC : forall t4, dof p * PI ^ 2 / 30 * t4 * (if fermion p then 7 / 8 else 1) = mconst p * t4) by (intros; unfold mconst; ring).
  assert (Hq : 0 < rho / mconst p) by (apply Rdiv_lt_0_compat; lra).
  assert (TE4 : T_eff p rho ^ 4 = rho / mconst p).
  { unfold T_eff. rewrite <- Rpower_pow by (apply exp_pos). rewrite Rpower_mult. replace (1 / 4 * INR 4) with 1 by (cbn; lra).
    apply Rpower_1. exact Hq. }
  assert (TP : 0 < T_eff p rho) by (apply exp_pos).
  unfold rad_plot, rad_compare, eq_compare, eff_compare. cbn [fst]. rewrite !CC, !rad_mconst.
  split; [field; repeat split; lra|]. split; [field; split; lra|]. split; [rewrite TE4; field; lra|]. split; [exact TP|]. split; [|split].
  - intros t H0. rewrite rad_mconst. intros E. assert (E4 : t ^ 4 = T_eff p rho ^ 4) by (rewrite TE4, <- E; field; lra).
    assert (E2 : (t ^ 2) = (T_eff p rho) ^ 2).
    { assert (P1 : 0 < t ^ 2) by (apply pow_lt; lra). assert (P2 : 0 < T_eff p rho ^ 2) by (apply pow_lt; lra).
      replace (t ^ 4) with ((t ^ 2) * (t ^ 2)) in E4 by ring. replace (T_eff p rho ^ 4) with ((T_eff p rho ^ 2) * (T_eff p rho ^ 2)) in E4 by ring. nra. }
    cbn [pow] in E2. nra.
  - replace ((T_eff p rho / (aT / a)) ^ 4) with (T_eff p rho ^ 4 / (aT / a) ^ 4) by (field; lra). rewrite TE4. reflexivity.
  - field. repeat split; lra.
Qed.
Print Assumptions C176_ratio.

(* A decoupled massless species that still has the equilibrium distribution of
   its own aT: with exact integrals the shown ratio is 1 up to 2 parts in 10^4,
   at any later scale factor. *)
Theorem C176_decoupled p X a aT grid f : tmass p = 0 -> 0 < dof p -> 0 < a -> 0 < aT -> 20 <= X ->
  Rabs (fst (rad_plot false f (rad_compare p
    (noneq_energy_density (fun g => RInt g 0 (X * aT)) p (fun y => 1 / (exp (y / aT) + eta p)) a) a aT grid)) - 1) <= 2 / 10000.
Proof.
  intros Hm Hd Ha HT HX. destruct (C175_massless p aT X Hm HT ltac:(lra) HX) as ((I & HI & B) & _ & _).
  pose proof (mconst_pos p Hd) as HC. assert (H4 : 0 < aT ^ 4) by (apply pow_lt; exact HT). assert (A4 : 0 < a ^ 4) by (apply pow_lt; exact Ha).
  assert (E : noneq_energy_density (fun g => RInt g 0 (X * aT)) p (fun y => 1 / (exp (y / aT) + eta p)) a = / a ^ 4 * I).
  { unfold noneq_energy_density. apply is_RInt_unique. pose proof (is_RInt_scal _ _ _ (/ a ^ 4) _ HI) as S.
    eapply is_RInt_ext; [|exact S]. assert (0 <= X * aT) by nra. rewrite Rmin_left, Rmax_right by lra. intros y [Hy _].
    change (@eq R (/ a ^ 4 * energy_integrand p aT y) (1 / (exp (y / aT) + eta p) * y ^ 2 * cenergy p y (tmass p * a) * dof p / 2 / PI ^ 2 / a ^ 4)).
    unfold energy_integrand, occupation, energy, cenergy. rewrite Hm. destruct (Rlt_dec 0 0) as [L|_]; [lra|].
    rewrite Rabs_right by lra. unfold Rdiv. ring. }
  rewrite E. unfold rad_plot, rad_compare. cbn [fst].
  replace (dof p * PI ^ 2 / 30 * (aT / a) ^ 4 * (if fermion p then 7 / 8 else 1)) with (mconst p * aT ^ 4 / a ^ 4) by (unfold mconst; field; lra).
  rewrite rad_mconst in B. set (c := mconst p * aT ^ 4) in *. assert (0 < c) by (unfold c; nra).
  replace (/ a ^ 4 * I / (c / a ^ 4) - 1) with ((I - c) / c) by (field; lra).
  unfold Rdiv at 1. rewrite Rabs_mult, (Rabs_right (/ c)) by (left; apply Rinv_0_lt_compat; lra).
  apply Rmult_le_reg_r with c; [assumption|]. rewrite Rmult_assoc, Rinv_l, Rmult_1_r by lra. exact B.
Qed.
Print Assumptions C176_decoupled.

(* A particle flagged as in equilibrium is drawn as 1 whatever its densities *)
Theorem C176_flag f cmp : rad_plot true f cmp = (1, map (fun _ => 1) f) /\ length (snd (rad_plot true f cmp)) = length f.
Proof. split; [reflexivity|]. cbn. apply map_length. Qed.
Print Assumptions C176_flag.

(* ---- massive particles ---- *)
Lemma rule_sum_le q (f g : R -> R) : Forall (fun nw => 0 <= snd nw) q -> (forall nw, In nw q -> f (fst nw) <= g (fst nw)) ->
  IntegratorsModel.rule_sum q f <= IntegratorsModel.rule_sum q g.
Proof.
  intros H. induction H as [|nw q Hw _ IH]; intros L; [cbn; lra|]. unfold IntegratorsModel.rule_sum in *. cbn [fold_right].
  pose proof (L nw (or_introl eq_refl)). specialize (IH (fun x Hx => L x (or_intror Hx))). nra.
Qed.
Lemma rule_sum_scale q c (f : R -> R) : IntegratorsModel.rule_sum q (fun y => c * f y) = c * IntegratorsModel.rule_sum q f.
Proof. unfold IntegratorsModel.rule_sum. induction q as [|nw q IH]; cbn [fold_right]; [ring|]. rewrite IH. ring. Qed.

(* the shown energy per mass is at least 1 (a rule with nonnegative weights, a
   nonnegative distribution), and a massless or absent species raises *)
Theorem C176_massive p q f a : 0 <= dof p -> 0 <= tmass p -> 0 < a -> Forall (fun nw => 0 <= snd nw /\ 0 <= f (fst nw)) q ->
  let n := noneq_density (IntegratorsModel.rule_sum q) p f a in
  let rho := noneq_energy_density (IntegratorsModel.rule_sum q) p f a in
  tmass p * n <= rho /\ 0 <= n /\
  (forall r, massive_point p rho n = Ok r -> 1 <= r /\ r * (tmass p * n) = rho) /\
  (massive_point p rho n = Raise ZeroDivisionError <-> tmass p = 0 \/ n = 0).
Proof.
  intros Hd Hm Ha HQ. cbv zeta. pose proof PI_RGT_0 as HP.
  assert (HW : Forall (fun nw => 0 <= snd nw) q) by (eapply Forall_impl; [|exact HQ]; cbn; tauto).
  assert (A3 : 0 < a ^ 3) by (apply pow_lt; exact Ha). assert (A4 : 0 < a ^ 4) by (apply pow_lt; exact Ha).
  assert (PP : 0 < PI ^ 2) by (apply pow_lt; exact HP).
  assert (N : forall nw, In nw q -> 0 <= f (fst nw) * fst nw ^ 2 * dof p / 2 / PI ^ 2 / a ^ 3).
  { intros nw Hi. pose proof (proj1 (Forall_forall _ _) HQ nw Hi) as [_ Hf]. unfold Rdiv.
    pose proof (pow2_ge_0 (fst nw)) as Y2. pose proof (Rinv_0_lt_compat _ PP). pose proof (Rinv_0_lt_compat _ A3).
    assert (0 <= f (fst nw) * fst nw ^ 2 * dof p) by (apply Rmult_le_pos; [apply Rmult_le_pos; assumption|assumption]).
    apply Rmult_le_pos; [|lra]. apply Rmult_le_pos; [|lra]. lra. }
  assert (N0 : 0 <= noneq_density (IntegratorsModel.rule_sum q) p f a).
  { unfold noneq_density. replace 0 with (0 * IntegratorsModel.rule_sum q (fun _ => 0)) by ring.
    rewrite <- (rule_sum_scale q 0). apply rule_sum_le; [exact HW|]. intros nw Hi. rewrite Rmult_0_r. apply N. exact Hi. }
  assert (LE : tmass p * noneq_density (IntegratorsModel.rule_sum q) p f a <= noneq_energy_density (IntegratorsModel.rule_sum q) p f a).
  { unfold noneq_density, noneq_energy_density. rewrite <- rule_sum_scale. apply rule_sum_le; [exact HW|]. intros nw Hi.
    specialize (N nw Hi). set (y := fst nw) in *.
    assert (C : tmass p * a <= cenergy p y (tmass p * a)).
    { unfold cenergy. destruct (Rlt_dec 0 (tmass p)).
      - assert (0 < tmass p * a) by nra. rewrite <- (sqrt_pow2 (tmass p * a)) at 1 by lra. apply sqrt_le_1_alt. nra.
      - replace (tmass p) with 0 by lra. rewrite Rmult_0_l. apply Rabs_pos. }
    replace (f y * y ^ 2 * cenergy p y (tmass p * a) * dof p / 2 / PI ^ 2 / a ^ 4)
      with (cenergy p y (tmass p * a) / a * (f y * y ^ 2 * dof p / 2 / PI ^ 2 / a ^ 3)) by (field; lra).
    apply Rmult_le_compat_r; [exact N|]. apply Rmult_le_reg_r with a; [exact Ha|].
    replace (cenergy p y (tmass p * a) / a * a) with (cenergy p y (tmass p * a)) by (field; lra). exact C. }
  split; [exact LE|]. split; [exact N0|]. set (n := noneq_density _ p f a) in *. set (rho := noneq_energy_density _ p f a) in *.
  unfold massive_point. split.
  - intros r. destruct (Req_EM_T (tmass p * n) 0) as [|NZ]; [discriminate|]. intros E. injection E as <-.
    assert (0 < tmass p * n) by (assert (0 <= tmass p * n) by nra; lra).
    split; [|field; split; intro Q; rewrite Q in NZ; apply NZ; ring].
    apply Rmult_le_reg_r with (tmass p * n); [assumption|]. unfold Rdiv. rewrite Rmult_assoc, Rinv_l by exact NZ. lra.
  - destruct (Req_EM_T (tmass p * n) 0) as [Z|NZ].
    + split; [intros _; apply Rmult_integral; exact Z|reflexivity].
    + split; [discriminate|]. intros [Q|Q]; exfalso; apply NZ; rewrite Q; ring.
Qed.
Print Assumptions C176_massive.

(* the curve (f - f_eq) y^2 vanishes for the equilibrium distribution, and only
   for it, on a grid of nonzero momenta *)
Theorem C176_curve p a aT MeV f grid : MeV <> 0 -> Forall (fun y => y <> 0) grid -> length f = length grid ->
  (Forall (fun v => v = 0) (massive_curve p a aT MeV f grid) <-> f = feq p a aT grid).
Proof.
  intros HM HG. unfold massive_curve. revert f. unfold feq. induction HG as [|y grid Hy _ IH]; intros [|v f] L; try discriminate.
  - cbn. split; auto.
  - injection L as L. cbn [map combine fst snd]. specialize (IH f L).
    assert (M2 : y * y / MeV ^ 2 <> 0).
    { unfold Rdiv. apply Rmult_integral_contrapositive_currified; [nra|]. apply Rinv_neq_0_compat. apply pow_nonzero. exact HM. }
    split.
    + intros H. inversion H as [|w ws H1 H2]; subst. apply IH in H2. rewrite H2. f_equal.
      apply Rmult_integral in H1 as [H1|H1]; [contradiction|]. cbn in H1. lra.
    + intros H. injection H as H1 H2. constructor; [rewrite H1; cbn; ring|]. apply IH. exact H2.
Qed.
Print Assumptions C176_curve.

(* ---- the largest collision integral ---- *)
Theorem C176_equilibration coll MeV : 0 < MeV ->
  (forall x, In x coll -> Rabs x * MeV <= equilibration_point coll MeV) /\
  (coll <> [] -> exists x, In x coll /\ equilibration_point coll MeV = Rabs x * MeV) /\
  (equilibration_point coll MeV = 0 <-> Forall (fun x => x = 0) coll).
Proof.
  intros HM. unfold equilibration_point.
  assert (A : forall l x, In x l -> Rabs x <= max_abs l).
  { induction l as [|y l IH]; intros x H; [destruct H|]. cbn [max_abs fold_right]. fold (max_abs l).
    destruct H as [<-|H]; [apply Rmax_l|]. eapply Rle_trans; [apply IH; exact H|apply Rmax_r]. }
  assert (P : forall l, 0 <= max_abs l).
  { induction l as [|y l IH]; cbn [max_abs fold_right]; [lra|]. fold (max_abs l). eapply Rle_trans; [exact IH|apply Rmax_r]. }
  split; [|split].
  - intros x H. apply Rmult_le_compat_r; [lra|]. apply A. exact H.
  - intros N. assert (E : exists x, In x coll /\ max_abs coll = Rabs x).
    { clear -P N. induction coll as [|y l IH]; [contradiction|]. cbn [max_abs fold_right]. fold (max_abs l).
      destruct (Rle_lt_dec (max_abs l) (Rabs y)) as [L|L].
      - exists y. split; [left; reflexivity|]. apply Rmax_left. exact L.
      - destruct l as [|z l]; [cbn in L; pose proof (Rabs_pos y); lra|].
        destruct (IH ltac:(discriminate)) as (x & Hx & E). exists x. split; [right; exact Hx|]. rewrite Rmax_right by lra. exact E. }
    destruct E as (x & Hx & E). exists x. split; [exact Hx|]. rewrite E. reflexivity.
  - split.
    + intros H. apply Rmult_integral in H as [H|H]; [|lra]. apply Forall_forall. intros x Hx.
      pose proof (A coll x Hx) as B. rewrite H in B. pose proof (Rabs_pos x). destruct (Req_dec x 0) as [|N]; [assumption|].
      apply Rabs_pos_lt in N. lra.
    + intros H. assert (Z : max_abs coll = 0); [|rewrite Z; ring]. induction H as [|x l -> _ IH]; [reflexivity|].
      cbn [max_abs fold_right]. fold (max_abs l). rewrite IH, Rabs_R0. apply Rmax_left. lra.
Qed.
Print Assumptions C176_equilibration.

(* ---- abundances ---- *)
(* With the recorded total being the sum over the species, the shown fractions
   lie between 0 and 1 and add up to 1; with a zero total the monitor raises. *)
Theorem C176_abundance (A : Type) (rho num : A -> R) (ps : list A) a MeV : (forall s, In s ps -> 0 <= rho s) ->
  let tot := total rho ps in
  (tot = 0 -> forall s, abundance (rho s) tot (num s) a MeV = Raise ZeroDivisionError) /\
  (tot <> 0 -> exists frac, (forall s, abundance (rho s) tot (num s) a MeV = Ok (frac s, num s * a ^ 3 / MeV ^ 3)) /\
     total frac ps = 1 /\ forall s, In s ps -> 0 <= frac s <= 1).
Proof.
  intros H. cbv zeta. split.
  - intros Z s. unfold abundance. destruct (Req_EM_T (total rho ps) 0); [reflexivity|contradiction].
  - intros NZ. exists (fun s => rho s / total rho ps). split; [|split].
    + intros s. unfold abundance. destruct (Req_EM_T (total rho ps) 0); [contradiction|reflexivity].
    + assert (G : forall t l, t <> 0 -> total (fun s => rho s / t) l = total rho l / t).
      { intros t l Ht. induction l as [|s l IH]; unfold total in *; cbn [fold_right]; [field; exact Ht|]. rewrite IH. field. exact Ht. }
      rewrite G by exact NZ. field. exact NZ.
    + assert (B : forall l, (forall s, In s l -> 0 <= rho s) -> 0 <= total rho l /\ forall s, In s l -> rho s <= total rho l).
      { induction l as [|s l IH]; intros HL; unfold total in *; cbn [fold_right]; [split; [lra|intros ? []]|].
        pose proof (HL s (or_introl eq_refl)). destruct (IH (fun x Hx => HL x (or_intror Hx))) as [B1 B2]. split; [lra|].
        intros x [<-|Hx]; [lra|]. specialize (B2 x Hx). lra. }
      destruct (B ps H) as [B1 B2]. intros s Hs. assert (0 < total rho ps) by lra. specialize (B2 s Hs). specialize (H s Hs).
      split; [apply Rmult_le_pos; [lra|left; apply Rinv_0_lt_compat; lra]|].
      apply Rmult_le_reg_r with (total rho ps); [lra|]. unfold Rdiv. rewrite Rmult_assoc, Rinv_l by lra. lra.
Qed.
Print Assumptions C176_abundance.

(* ---- comoving densities ---- *)
(* Radiation at constant aT, and any species whose distribution on the grid
   does not change (massless for the first component), is shown as constant. *)
Theorem C176_comoving p aT a a' q f MeV : 0 < a -> 0 < a' -> MeV <> 0 ->
  comoving (rad_energy_density p (aT / a)) (rad_density p (aT / a)) a MeV =
  comoving (rad_energy_density p (aT / a')) (rad_density p (aT / a')) a' MeV /\
  snd (comoving (noneq_energy_density (IntegratorsModel.rule_sum q) p f a) (noneq_density (IntegratorsModel.rule_sum q) p f a) a MeV) =
  snd (comoving (noneq_energy_density (IntegratorsModel.rule_sum q) p f a') (noneq_density (IntegratorsModel.rule_sum q) p f a') a' MeV) /\
  (tmass p = 0 ->
   comoving (noneq_energy_density (IntegratorsModel.rule_sum q) p f a) (noneq_density (IntegratorsModel.rule_sum q) p f a) a MeV =
   comoving (noneq_energy_density (IntegratorsModel.rule_sum q) p f a') (noneq_density (IntegratorsModel.rule_sum q) p f a') a' MeV).
Proof.
  intros Ha Ha' HM. pose proof PI_RGT_0.
  assert (RD : forall b, 0 < b -> rad_density p (aT / b) * b ^ 3 = rad_density p aT).
  { intros b Hb. unfold rad_density. destruct (fermion p); field; lra. }
  assert (RE : forall b, 0 < b -> rad_energy_density p (aT / b) * b ^ 4 = rad_energy_density p aT).
  { intros b Hb. unfold rad_energy_density. destruct (fermion p); field; lra. }
  assert (ND : forall b, 0 < b -> noneq_density (IntegratorsModel.rule_sum q) p f b * b ^ 3 = noneq_density (IntegratorsModel.rule_sum q) p f 1).
  { intros b Hb. unfold noneq_density. rewrite Rmult_comm, <- rule_sum_scale. unfold IntegratorsModel.rule_sum.
    induction q as [|nw q' IH]; cbn [fold_right]; [reflexivity|]. rewrite IH. f_equal. field. lra. }
  assert (NE : forall b, tmass p = 0 -> 0 < b -> noneq_energy_density (IntegratorsModel.rule_sum q) p f b * b ^ 4 = noneq_energy_density (IntegratorsModel.rule_sum q) p f 1).
  { clear ND. intros b Hm Hb. unfold noneq_energy_density. rewrite Rmult_comm, <- rule_sum_scale. unfold IntegratorsModel.rule_sum.
    induction q as [|nw q' IH]; cbn [fold_right]; [reflexivity|]. rewrite IH. apply f_equal2; [|reflexivity]. rewrite Hm, !Rmult_0_l. field. split; lra. }
  unfold comoving. cbn [snd]. repeat split.
  - rewrite (RD a), (RD a'), (RE a), (RE a') by assumption. reflexivity.
  - rewrite (ND a), (ND a') by assumption. reflexivity.
  - intros Hm. rewrite (ND a), (ND a'), (NE a), (NE a') by assumption. reflexivity.
Qed.
Print Assumptions C176_comoving.

Example C176_example :
  (* a photon gas with 16 times the energy of equilibrium has twice the temperature *)
  T_eff (mkTpart 2 0 false) (16 * rad_energy_density (mkTpart 2 0 false) 1) = 2 /\
  fst (rad_plot false [] (rad_compare (mkTpart 2 0 false) (16 * rad_energy_density (mkTpart 2 0 false) 1) 1 1 [])) = 16 /\
  massive_point (mkTpart 2 3 true) 12 2 = Ok 2 /\ massive_point (mkTpart 2 0 true) 12 2 = Raise ZeroDivisionError /\
  equilibration_point [1; -3; 2] 2 = 6 /\ abundance 1 4 5 2 1 = Ok (1 / 4, 40).
Proof.
  assert (HD : 0 < dof (mkTpart 2 0 false)) by (cbn; lra). pose proof (mconst_pos _ HD) as HC.
  assert (HR : 16 * rad_energy_density (mkTpart 2 0 false) 1 = rad_energy_density (mkTpart 2 0 false) 2) by (rewrite !rad_mconst; ring).
  assert (HR0 : 0 < rad_energy_density (mkTpart 2 0 false) 2) by (rewrite rad_mconst; lra).
  rewrite !HR. pose proof (C176_ratio _ _ 1 1 1 [] [] HD HR0 ltac:(lra) ltac:(lra) ltac:(lra)) as (A & _ & _ & _ & U & _).
  split; [symmetry; apply U; [lra|reflexivity]|]. split.
  { set (v := fst _) in *. rewrite !rad_mconst in A. replace (1 / 1) with 1 in A by field.
    apply Rmult_eq_reg_r with (mconst (mkTpart 2 0 false)); lra. }
  unfold massive_point. cbn [tmass]. destruct (Req_EM_T (3 * 2) 0); [lra|]. destruct (Req_EM_T (0 * 2) 0); [|lra].
  split; [f_equal; field|]. split; [reflexivity|]. split.
  - unfold equilibration_point, max_abs. cbn [fold_right]. rewrite (Rabs_left (-3)), !Rabs_right by lra.
    rewrite (Rmax_left 2 0), (Rmax_left (- -3) 2), (Rmax_right 1 (- -3)) by lra. lra.
  - unfold abundance. destruct (Req_EM_T 4 0); [lra|]. f_equal. f_equal; field.
Qed.
