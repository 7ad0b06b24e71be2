From Coq Require Import Reals Lra Psatz Permutation.
From Verif Require Import Base ParamsModel ParamsProofs OscModel.
Open Scope R_scope.

Lemma sc1 t : sin t ^ 2 + cos t ^ 2 = 1.
Proof. pose proof (sin2_cos2 t) as H. unfold Rsqr in H. lra. Qed.
Lemma s2 t : sin (2 * t) ^ 2 = 4 * sin t ^ 2 * cos t ^ 2.
Proof. rewrite sin_2a. ring. Qed.
Lemma pow2_gt_0 x : x <> 0 -> 0 < x ^ 2.
Proof. intros H. pose proof (Rsqr_pos_lt x H) as P. unfold Rsqr in P. lra. Qed.
Lemma sq_range x : 0 <= sin x ^ 2 <= 1 /\ 0 <= cos x ^ 2 <= 1.
Proof. pose proof (sc1 x). pose proof (pow2_ge_0 (sin x)). pose proof (pow2_ge_0 (cos x)). lra. Qed.

(* squared moduli of the mixing matrix with theta_23 = 0; rows e, mu, tau *)
Definition U2 (t12 t13 : R) (a i : nat) : R :=
  match a, i with
  | 0%nat, 0%nat => (cos t12 * cos t13) ^ 2 | 0%nat, 1%nat => (sin t12 * cos t13) ^ 2 | 0%nat, 2%nat => sin t13 ^ 2
  | 1%nat, 0%nat => sin t12 ^ 2 | 1%nat, 1%nat => cos t12 ^ 2 | 1%nat, 2%nat => 0
  | 2%nat, 0%nat => (cos t12 * sin t13) ^ 2 | 2%nat, 1%nat => (sin t12 * sin t13) ^ 2 | 2%nat, 2%nat => cos t13 ^ 2
  | _, _ => 0
  end.
Definition row (e : entry) : nat := match e with EE | EM | ET => 0%nat | MM | MT => 1%nat | TT => 2%nat end.
Definition col (e : entry) : nat := match e with EE => 0%nat | EM | MM => 1%nat | ET | MT | TT => 2%nat end.

Lemma prob_U e t12 t13 : prob e t12 t13 =
  U2 t12 t13 (row e) 0 * U2 t12 t13 (col e) 0 + U2 t12 t13 (row e) 1 * U2 t12 t13 (col e) 1 + U2 t12 t13 (row e) 2 * U2 t12 t13 (col e) 2.
Proof.
  pose proof (sc1 t12) as H1. pose proof (sc1 t13) as H2.
  destruct e; cbn [row col U2 prob]; rewrite ?s2; 
  replace (cos t13 ^ 4) with ((cos t13 ^ 2) ^ 2) by ring; rewrite ?Rpow_mult_distr;
  set (s := sin t13 ^ 2) in *; set (u := sin t12 ^ 2) in *;
  replace (cos t13 ^ 2) with (1 - s) in * by lra; replace (cos t12 ^ 2) with (1 - u) in * by lra; field.
Qed.

Lemma prob_range e t12 t13 : 0 <= prob e t12 t13 <= 1 /\ (e = EE \/ e = TT -> 1 / 3 <= prob e t12 t13) /\ (e = MM -> 1 / 2 <= prob e t12 t13).
Proof.
  pose proof (sc1 t13) as H2. destruct (sq_range t13) as [Hs Hc]. destruct (sq_range (2 * t12)) as [Hw _].
  destruct e; cbn [prob]; rewrite ?s2; replace (cos t13 ^ 4) with ((cos t13 ^ 2) ^ 2) by ring;
  replace (cos t13 ^ 2) with (1 - sin t13 ^ 2) in * by lra;
  replace (4 * sin t12 ^ 2 * cos t12 ^ 2) with (sin (2 * t12) ^ 2) by apply s2;
  set (s := sin t13 ^ 2) in *; set (w := sin (2 * t12) ^ 2) in *; clearbody s w; clear H2.
  - assert (0 <= s * (1 - s)) by nra. assert (0 <= (1 - s) ^ 2 * w <= (1 - s) ^ 2) by (pose proof (pow2_ge_0 (1 - s)); nra).
    assert (4 * s * (1 - s) + (1 - s) ^ 2 <= 4 / 3) by (pose proof (pow2_ge_0 (3 * s - 1)); nra).
    split; [nra|]. split; [intros _; nra|discriminate].
  - split; [nra|]. split; [intros [|]; discriminate|discriminate].
  - assert (0 <= s * (1 - s) <= 1 / 4) by (pose proof (pow2_ge_0 (2 * s - 1)); nra). split; [nra|]. split; [intros [|]; discriminate|discriminate].
  - split; [nra|]. split; [intros [|]; discriminate|intros _; nra].
  - split; [nra|]. split; [intros [|]; discriminate|discriminate].
  - assert (0 <= s * (1 - s)) by nra. assert (0 <= s * s * w <= s * s) by nra.
    assert (2 * s * (1 - s) + / 2 * (s * s) <= 2 / 3) by (pose proof (pow2_ge_0 (3 * s - 2)); nra).
    split; [nra|]. split; [intros _; nra|discriminate].
Qed.

Lemma prob_rows t12 t13 :
  prob EE t12 t13 + prob EM t12 t13 + prob ET t12 t13 = 1 /\
  prob EM t12 t13 + prob MM t12 t13 + prob MT t12 t13 = 1 /\
  prob ET t12 t13 + prob MT t12 t13 + prob TT t12 t13 = 1.
Proof.
  pose proof (sc1 t13) as H2. cbn [prob]. rewrite (s2 t13). replace (cos t13 ^ 4) with ((cos t13 ^ 2) ^ 2) by ring.
  replace (cos t13 ^ 2) with (1 - sin t13 ^ 2) in * by lra. set (s := sin t13 ^ 2). set (w := sin (2 * t12) ^ 2). repeat split; field.
Qed.

(* arrays *)
Definition fits (n : nat) (x : arr) : Prop := match x with Sc _ => True | Ar l => length l = n end.
Definition at_ (i : nat) (x : arr) : R := match x with Sc r => r | Ar l => nth i l 0 end.

Lemma zipw_length f l : forall m, length l = length m -> length (zipw f l m) = length l.
Proof. induction l as [|a l IH]; intros [|b m] H; cbn in *; try lia. rewrite IH; lia. Qed.
Lemma zipw_nth f l : forall m i, length l = length m -> (i < length l)%nat -> nth i (zipw f l m) 0 = f (nth i l 0) (nth i m 0).
Proof.
  induction l as [|a l IH]; intros [|b m] i H Hi; cbn [length zipw] in *; try lia. destruct i as [|i]; cbn [nth]; [reflexivity|]. apply IH; lia.
Qed.
Lemma amap_fits n f x : fits n x -> fits n (amap f x).
Proof. destruct x; cbn; [auto|]. now rewrite map_length. Qed.
Lemma amap_at n f x i : fits n x -> (i < n)%nat -> at_ i (amap f x) = f (at_ i x).
Proof. destruct x as [r|l]; cbn; [auto|]. intros H Hi. rewrite (nth_indep _ 0 (f 0)) by (rewrite map_length; lia). now rewrite map_nth. Qed.
Lemma bop_ok n f x y : fits n x -> fits n y -> exists z, bop f x y = Ok z /\ fits n z /\ forall i, (i < n)%nat -> at_ i z = f (at_ i x) (at_ i y).
Proof.
  intros Hx Hy. destruct x as [a|l], y as [b|m]; cbn in Hx, Hy |- *.
  - eexists. split; [reflexivity|]. split; [exact I|]. reflexivity.
  - eexists. split; [reflexivity|]. split; [cbn; now rewrite map_length|]. intros i Hi. apply (amap_at n (f a) (Ar m)); auto.
  - eexists. split; [reflexivity|]. split; [cbn; now rewrite map_length|]. intros i Hi. apply (amap_at n (fun a => f a b) (Ar l)); auto.
  - replace (length l =? length m)%nat with true by (symmetry; apply Nat.eqb_eq; congruence).
    eexists. split; [reflexivity|]. split; [cbn; rewrite zipw_length; congruence|]. intros i Hi. apply zipw_nth; congruence.
Qed.

Definition flavours : list string := ["electron"; "muon"; "tau"]%string.
Lemma find_ok a b : In a flavours -> In b flavours -> exists e, find_entry a b = Ok e /\ find_entry b a = Ok e.
Proof.
  cbn. intros Ha Hb. repeat (destruct Ha as [<-|Ha]; [repeat (destruct Hb as [<-|Hb]; [eexists; split; reflexivity|]); contradiction|]). contradiction.
Qed.
Lemma find_only a b e : find_entry a b = Ok e -> In a flavours /\ In b flavours.
Proof.
  unfold find_entry. cbn.
  destruct (String.eqb_spec a "electron"); destruct (String.eqb_spec a "muon"); destruct (String.eqb_spec a "tau");
  destruct (String.eqb_spec b "electron"); destruct (String.eqb_spec b "muon"); destruct (String.eqb_spec b "tau"); intros E; try discriminate E; subst; tauto.
Qed.

(* the pattern at grid index i is that of two angles *)
Lemma pattern_at n t12 t13 a b e : fits n t12 -> fits n t13 -> find_entry a b = Ok e ->
  exists z, pattern_of t12 t13 a b = Ok z /\ fits n z /\ forall i, (i < n)%nat -> at_ i z = prob e (at_ i t12) (at_ i t13).
Proof.
  intros H1 H2 E. unfold pattern_of. rewrite E. cbn [rbind]. destruct e; try (apply bop_ok; auto).
  eexists. split; [reflexivity|]. split; [now apply amap_fits|]. intros i Hi. rewrite (amap_at n) by auto. reflexivity.
Qed.

(* ---------- the matter angle ---------- *)
Lemma sin_sq_atan x : sin (atan x) ^ 2 = x ^ 2 / (1 + x ^ 2).
Proof.
  pose proof (cos_gt_0 (atan x)) as Hc. destruct (atan_bound x) as [B1 B2]. specialize (Hc ltac:(lra) ltac:(lra)).
  pose proof (tan_atan x) as HT. unfold tan in HT. pose proof (sc1 (atan x)) as H1.
  assert (HS : sin (atan x) = x * cos (atan x)) by (rewrite <- HT at 2; field; lra).
  rewrite HS in H1 |- *. set (c := cos (atan x)) in *. assert (HC : c ^ 2 * (1 + x ^ 2) = 1) by (transitivity ((x * c) ^ 2 + c ^ 2); [ring|exact H1]).
  assert (0 < 1 + x ^ 2) by (pose proof (pow2_ge_0 x); lra).
  apply Rmult_eq_reg_r with (1 + x ^ 2); [|lra]. replace (x ^ 2 / (1 + x ^ 2) * (1 + x ^ 2)) with (x ^ 2) by (field; lra).
  rewrite Rpow_mult_distr, Rmult_assoc, HC. ring.
Qed.
Lemma matter_sin2 th msw : sin (2 * th) <> 0 ->
  sin (2 * matter_angle th msw) ^ 2 = sin (2 * th) ^ 2 / (sin (2 * th) ^ 2 + (cos (2 * th) + msw) ^ 2).
Proof.
  intros HS. unfold matter_angle. rewrite <- Rmult_assoc, Rinv_r, Rmult_1_l by lra.
  assert (0 < sin (2 * th) ^ 2) by (apply pow2_gt_0; auto).
  destruct (Req_EM_T _ 0) as [E|E].
  - rewrite E, sin_PI2. field. nra.
  - rewrite sin_sq_atan. assert (0 < (cos (2 * th) + msw) ^ 2) by (apply pow2_gt_0; auto). field. repeat split; nra.
Qed.
Lemma matter_vac th : 0 < th < PI / 4 -> matter_angle th 0 = th.
Proof.
  intros H. unfold matter_angle. assert (0 < cos (2 * th)) by (apply cos_gt_0; lra).
  rewrite Rplus_0_r. destruct (Req_EM_T _ 0); [lra|]. change (sin (2 * th) / cos (2 * th)) with (tan (2 * th)). rewrite atan_tan by lra. lra.
Qed.
Lemma matter_range th msw : - (PI / 4) <= matter_angle th msw <= PI / 4.
Proof.
  unfold matter_angle. pose proof PI_RGT_0. destruct (Req_EM_T _ 0); [lra|]. destruct (atan_bound (sin (2 * th) / (cos (2 * th) + msw))). lra.
Qed.

(* ---------- mixing ---------- *)
Lemma lookup_in ps f : In f (map flavour ps) -> NoDup (map flavour ps) -> exists B, In B ps /\ flavour B = f /\ lookup ps f = Ok (coll B).
Proof.
  induction ps as [|B r IH]; cbn; [tauto|]. intros HI HN. apply NoDup_cons_iff in HN. destruct HN as [HN HR].
  destruct HI as [E|HI].
  - exists B. split; [auto|]. split; [auto|]. assert (X : lookup r f = Raise KeyError).
    { clear - HN E. subst f. induction r as [|C r IH]; [reflexivity|]. cbn in *. rewrite IH by tauto. destruct (String.eqb_spec (flavour C) (flavour B)); [tauto|reflexivity]. }
    rewrite X, E, String.eqb_refl. reflexivity.
  - destruct (IH HI HR) as (C & HC & HF & HL). exists C. rewrite HL. auto.
Qed.
Lemma lookup_self ps B : In B ps -> NoDup (map flavour ps) -> lookup ps (flavour B) = Ok (coll B).
Proof.
  intros HB HN. destruct (lookup_in ps (flavour B)) as (C & HC & HF & HL); [now apply in_map|auto|].
  rewrite HL. do 2 f_equal. revert HN HB HC HF. clear. induction ps as [|D r IH]; cbn; [tauto|]. intros HN HB HC HF.
  apply NoDup_cons_iff in HN. destruct HN as [HN HR]. destruct HB as [<-|HB], HC as [<-|HC]; auto.
  - exfalso. apply HN. rewrite <- HF. now apply in_map.
  - exfalso. apply HN. rewrite HF. now apply in_map.
Qed.

Fixpoint sumR {A} (f : A -> R) (l : list A) : R := match l with [] => 0 | x :: t => f x + sumR f t end.
Lemma sumR_perm {A} (f : A -> R) l l' : Permutation l l' -> sumR f l = sumR f l'.
Proof. induction 1; cbn; lra. Qed.
Lemma sumR_ext {A} (f g : A -> R) l : (forall x, In x l -> f x = g x) -> sumR f l = sumR g l.
Proof. induction l as [|x l IH]; cbn; intros H; [reflexivity|]. rewrite H, IH; auto. Qed.
Lemma sumR_plus {A} (f g : A -> R) l : sumR (fun x => f x + g x) l = sumR f l + sumR g l.
Proof. induction l as [|x l IH]; cbn; lra. Qed.
Lemma sumR_scal {A} c (f : A -> R) l : sumR (fun x => c * f x) l = c * sumR f l.
Proof. induction l as [|x l IH]; cbn; [ring|]. rewrite IH. ring. Qed.
Lemma sumR_swap {A B} (f : A -> B -> R) l m : sumR (fun x => sumR (f x) m) l = sumR (fun y => sumR (fun x => f x y) l) m.
Proof.
  induction l as [|x l IH]; cbn; [|rewrite IH, <- sumR_plus; apply sumR_ext; reflexivity].
  induction m as [|y m IH]; cbn; [reflexivity|]. rewrite <- IH. ring.
Qed.
Lemma sumR_map {A B} (g : A -> B) (f : B -> R) l : sumR f (map g l) = sumR (fun x => f (g x)) l.
Proof. induction l as [|x l IH]; cbn; [reflexivity|]. now rewrite IH. Qed.

(* a pattern that has, for all flavours of the list, an entry fitting the grid *)
Definition serves (p : pattern) (n : nat) (ps : list nu) : Prop :=
  forall A B, In A ps -> In B ps -> exists z, p (flavour A) (flavour B) = Ok z /\ fits n z.
Definition pat (p : pattern) (i : nat) (a b : string) : R := match p a b with Ok z => at_ i z | Raise _ => 0 end.

Lemma mixed_ok p n ps A : NoDup (map flavour ps) -> In A ps -> serves p n ps -> Forall (fun B => fits n (coll B)) ps ->
  exists z, mixed p ps A = Ok z /\ fits n z /\ forall i, (i < n)%nat -> at_ i z = sumR (fun B => pat p i (flavour A) (flavour B) * at_ i (coll B)) ps.
Proof.
  intros HN HA HS HF. unfold mixed.
  assert (G : forall l acc, incl l ps -> fits n acc -> exists z, rfold (fun acc B =>
           let* c := p (flavour A) (flavour B) in let* x := lookup ps (flavour B) in let* m := bop Rmult c x in bop Rplus acc m) acc l = Ok z /\ fits n z /\
     forall i, (i < n)%nat -> at_ i z = at_ i acc + sumR (fun B => pat p i (flavour A) (flavour B) * at_ i (coll B)) l).
  { induction l as [|B l IH]; intros acc HI Ha; cbn [rfold sumR].
    - exists acc. split; [reflexivity|]. split; [auto|]. intros; lra.
    - assert (HB : In B ps) by (apply HI; now left). destruct (HS A B HA HB) as (c & Ec & Fc). rewrite Ec. cbn [rbind].
      rewrite lookup_self by auto. cbn [rbind]. assert (FB : fits n (coll B)) by (apply (proj1 (Forall_forall _ _) HF); auto).
      destruct (bop_ok n Rmult c (coll B) Fc FB) as (m & Em & Fm & Am). rewrite Em. cbn [rbind].
      destruct (bop_ok n Rplus acc m Ha Fm) as (a' & Ea & Fa & Aa). rewrite Ea. destruct (IH a') as (z & Ez & Fz & Az); [intros x Hx; apply HI; now right|auto|].
      exists z. split; [exact Ez|]. split; [auto|]. intros i Hi. rewrite Az, Aa, Am by auto. unfold pat at 2. rewrite Ec. lra. }
  destruct (G ps (Sc 0) (incl_refl _) I) as (z & Ez & Fz & Az). exists z. split; [exact Ez|]. split; [auto|]. intros i Hi. rewrite Az by auto. cbn. lra.
Qed.

Lemma each_ok {A B} (f : A -> result B) (g : A -> B) l : (forall x, In x l -> f x = Ok (g x)) -> each f l = Ok (map g l).
Proof. induction l as [|x l IH]; cbn; intros H; [reflexivity|]. rewrite H by auto. cbn [rbind]. rewrite IH by auto. reflexivity. Qed.

Definition mval (p : pattern) (ps : list nu) (A : nu) : arr := match mixed p ps A with Ok z => z | Raise _ => Sc 0 end.
Definition below (T : R) (ps : list nu) : Prop := exists A, In A ps /\ T < Tdec A.
Lemma mix_ok p n T ps : NoDup (map flavour ps) -> serves p n ps -> Forall (fun B => fits n (coll B)) ps -> below T ps ->
  mix p T ps = Ok (map (fun A => set_coll (mval p ps A) A) ps).
Proof.
  intros HN HS HF (A & HA & HT). unfold mix.
  replace (existsb _ ps) with true.
  - apply each_ok. intros B HB. destruct (mixed_ok p n ps B HN HB HS HF) as (z & Ez & _). unfold mval. rewrite Ez. reflexivity.
  - symmetry. apply existsb_exists. exists A. split; [auto|]. destruct (Rlt_dec _ _); [reflexivity|lra].
Qed.
Lemma mix_none p T ps : (forall A, In A ps -> Tdec A <= T) -> mix p T ps = Ok ps.
Proof.
  intros H. unfold mix. replace (existsb _ ps) with false; [reflexivity|]. symmetry. apply Bool.not_true_is_false. intros E.
  apply existsb_exists in E. destruct E as (A & HA & E). specialize (H A HA). destruct (Rlt_dec _ _); [lra|discriminate].
Qed.
Lemma mval_fits p n ps A : NoDup (map flavour ps) -> In A ps -> serves p n ps -> Forall (fun B => fits n (coll B)) ps -> fits n (mval p ps A).
Proof. intros HN HA HS HF. destruct (mixed_ok p n ps A HN HA HS HF) as (z & Ez & Fz & _). unfold mval. now rewrite Ez. Qed.
Lemma mval_at p n ps A i : NoDup (map flavour ps) -> In A ps -> serves p n ps -> Forall (fun B => fits n (coll B)) ps -> (i < n)%nat ->
  at_ i (mval p ps A) = sumR (fun B => pat p i (flavour A) (flavour B) * at_ i (coll B)) ps.
Proof. intros HN HA HS HF Hi. destruct (mixed_ok p n ps A HN HA HS HF) as (z & Ez & _ & Az). unfold mval. rewrite Ez. auto. Qed.

(* doubly stochastic columns conserve the sum *)
Lemma mix_conserves p n T ps qs i : NoDup (map flavour ps) -> serves p n ps -> Forall (fun B => fits n (coll B)) ps -> below T ps ->
  (forall B, In B ps -> sumR (fun A => pat p i (flavour A) (flavour B)) ps = 1) -> (i < n)%nat ->
  mix p T ps = Ok qs -> sumR (fun A => at_ i (coll A)) qs = sumR (fun A => at_ i (coll A)) ps.
Proof.
  intros HN HS HF HB HC Hi E. rewrite (mix_ok p n T ps HN HS HF HB) in E. injection E as <-. rewrite sumR_map. cbn [set_coll coll].
  rewrite (sumR_ext _ (fun A => sumR (fun B => pat p i (flavour A) (flavour B) * at_ i (coll B)) ps)) by (intros A HA; eapply mval_at; eauto).
  rewrite sumR_swap. apply sumR_ext. intros B HB'. rewrite (sumR_ext _ (fun A => at_ i (coll B) * pat p i (flavour A) (flavour B))) by (intros; ring).
  rewrite sumR_scal, HC by auto. ring.
Qed.

(* ---------- the applied change ---------- *)
From Verif Require EvolveModel ParticleModel.
(* value of the distribution of a particle at grid index i *)
Definition fval (i : nat) (q : ParticleModel.particle) : R := fin_of (nth i (ParticleModel.sdist (snd q)) (EvolveModel.Fin 0)).
Definition cval (i : nat) (q : ParticleModel.particle) : R := fin_of (nth i (ParticleModel.scoll (snd q)) (EvolveModel.Fin 0)).
Definition finite_list (n : nat) (l : list EvolveModel.xr) : Prop := exists v, length v = n /\ l = map EvolveModel.Fin v.
Definition ready (n : nat) (q : ParticleModel.particle) : Prop :=
  ParticleModel.fast_decay (fst q) = None /\ ParticleModel.in_equilibrium (fst q) (snd q) = false /\ finite_list n (ParticleModel.sdist (snd q)) /\ finite_list n (ParticleModel.scoll (snd q)).

Lemma map_fin_of l : map fin_of (map EvolveModel.Fin l) = l.
Proof. induction l as [|x l IH]; cbn; [reflexivity|]. now rewrite IH. Qed.
Lemma nth_Fin i v : fin_of (nth i (map EvolveModel.Fin v) (EvolveModel.Fin 0)) = nth i v 0.
Proof. revert i. induction v as [|x v IH]; intros [|i]; cbn; auto. Qed.
Lemma clean_Fin v : map (fun x => if ParticleModel.isnan x then EvolveModel.Fin 0 else x) (map EvolveModel.Fin v) = map EvolveModel.Fin v.
Proof. induction v as [|x v IH]; cbn; [reflexivity|]. now rewrite IH. Qed.
Lemma finite_Fin v : forallb ParticleModel.isfinite (map EvolveModel.Fin v) = true.
Proof. induction v as [|x v IH]; cbn; auto. Qed.

Lemma update_one_ready n e q cv i : ParticleModel.fast_decay (fst q) = None -> ParticleModel.in_equilibrium (fst q) (snd q) = false -> finite_list n (ParticleModel.sdist (snd q)) ->
  length cv = n -> (forall j, (j < n)%nat -> 0 <= fval j q + nth j cv 0 * ParticleModel.eh e) -> (i < n)%nat ->
  exists q', update_one e (fst q, ParticleModel.set_coll (map EvolveModel.Fin cv) (snd q)) = Ok q' /\ fval i q' = fval i q + nth i cv 0 * ParticleModel.eh e.
Proof.
  destruct q as [c s]. cbn [fst snd]. intros HF HE (v & Hv & Ev) HC HP Hi. unfold update_one, ParticleModel.update_distribution.
  replace (ParticleModel.in_equilibrium c (ParticleModel.set_coll (map EvolveModel.Fin cv) s)) with false by (symmetry; exact HE).
  cbn [ParticleModel.scoll ParticleModel.set_coll]. rewrite clean_Fin, finite_Fin. cbn [negb]. rewrite HF. eexists. split; [reflexivity|].
  unfold fval in *. cbn [snd ParticleModel.sdist ParticleModel.set_dist ParticleModel.set_coll] in *. rewrite Ev in *. clear - HC Hv HP Hi.
  rewrite nth_Fin. assert (HP' : forall j, (j < n)%nat -> 0 <= nth j v 0 + nth j cv 0 * ParticleModel.eh e) by (intros j Hj; specialize (HP j Hj); now rewrite nth_Fin in HP).
  clear HP. revert cv n i Hv HC HP' Hi. induction v as [|x v IH]; intros [|y cv] n i Hv HC HP Hi; cbn [length] in *; try lia.
  subst n. cbn [map ParticleModel.zip2]. destruct i as [|i]; cbn [nth].
  - specialize (HP 0%nat ltac:(lia)). cbn [nth] in HP. cbn. destruct (Rlt_dec _ 0); cbn; lra.
  - apply (IH cv (length v) i); auto; try lia. intros j Hj. apply (HP (S j)). lia.
Qed.

Lemma arith a b m s h : a + m * h + (b + h * s) = a + b + h * (m + s).
Proof. ring. Qed.
Lemma osc_change p n T e l i : NoDup (map fst l) -> serves p n (map nu_of l) -> Forall (fun fp => ready n (snd fp)) l -> (i < n)%nat ->
  (exists fp, In fp l /\ T < ParticleModel.Tdec (snd (snd fp))) ->
  (forall b, In b (map fst l) -> forall j, (j < n)%nat -> sumR (fun a => pat p j a b) (map fst l) = 1) ->
  (forall fp j, In fp l -> (j < n)%nat -> 0 <= fval j (snd fp) + ParticleModel.eh e * sumR (fun gp => pat p j (fst fp) (fst gp) * cval j (snd gp)) l) ->
  exists qs, osc_update p T e l = Ok qs /\
    sumR (fval i) qs = sumR (fun fp => fval i (snd fp)) l + ParticleModel.eh e * sumR (fun fp => cval i (snd fp)) l.
Proof.
  intros HN HS HR Hi (fp0 & H0 & HT) HC HP. unfold osc_update.
  assert (HX : existsb (fun fp : string * ParticleModel.particle => if Rlt_dec T (ParticleModel.Tdec (snd (snd fp))) then true else false) l = true).
  { apply existsb_exists. exists fp0. split; [auto|]. destruct (Rlt_dec _ _); [reflexivity|lra]. }
  match goal with |- context [existsb ?f l] => replace (existsb f l) with true by (symmetry; exact HX) end.
  assert (HN' : NoDup (map flavour (map nu_of l))) by (rewrite map_map; exact HN).
  assert (HF : Forall (fun B => fits n (coll B)) (map nu_of l)).
  { apply Forall_forall. intros B HB. apply in_map_iff in HB. destruct HB as (fp & <- & Hfp). pose proof (proj1 (Forall_forall _ _) HR fp Hfp) as (_ & _ & _ & v & Hv & Ev).
    cbn. rewrite Ev, map_fin_of. exact Hv. }
  assert (HB : below T (map nu_of l)) by (exists (nu_of fp0); split; [now apply in_map|exact HT]).
  rewrite (mix_ok p n T _ HN' HS HF HB). cbn [rbind]. rewrite map_map. cbn [set_coll].
  set (mv := fun fp => mval p (map nu_of l) (nu_of fp)).
  assert (MV : forall fp, In fp l -> fits n (mv fp) /\ forall j, (j < n)%nat -> at_ j (mv fp) = sumR (fun gp => pat p j (fst fp) (fst gp) * cval j (snd gp)) l).
  { intros fp Hfp. split; [apply mval_fits; auto; now apply in_map|]. intros j Hj. unfold mv. rewrite (mval_at p n) by (auto; now apply in_map).
    rewrite sumR_map. apply sumR_ext. intros gp Hgp. cbn [nu_of flavour coll at_]. f_equal.
    pose proof (proj1 (Forall_forall _ _) HR gp Hgp) as (_ & _ & _ & v & Hv & Ev). unfold cval. rewrite Ev, map_fin_of, nth_Fin. reflexivity. }
  assert (G : forall l', incl l' l -> exists qs, each (fun fm => update_one e (with_coll (fst fm) (snd fm))) (combine l' (map (fun fp => set_coll (mv fp) (nu_of fp)) l')) = Ok qs /\
     sumR (fval i) qs = sumR (fun fp => fval i (snd fp)) l' + ParticleModel.eh e * sumR (fun fp => at_ i (mv fp)) l').
  { induction l' as [|fp l' IH]; intros HI; cbn [map combine each sumR].
    - exists []. split; [reflexivity|]. cbn. ring.
    - destruct IH as (qs & Eq & Sq); [intros x Hx; apply HI; now right|]. assert (Hfp : In fp l) by (apply HI; now left).
      pose proof (proj1 (Forall_forall _ _) HR fp Hfp) as (R1 & R2 & R3 & v & Hv & Ev). destruct (MV fp Hfp) as [M1 M2].
      cbn [fst snd]. destruct fp as [name [c s]]. cbn [snd fst coll set_coll] in *.
      set (cv := values (length (ParticleModel.scoll s)) (mv (name, (c, s)))).
      assert (HL : length (ParticleModel.scoll s) = n) by (rewrite Ev, map_length; exact Hv).
      assert (CV : length cv = n /\ forall j, (j < n)%nat -> nth j cv 0 = at_ j (mv (name, (c, s)))).
      { unfold cv. rewrite HL. destruct (mv (name, (c, s))) as [r|w] eqn:Em; cbn [values].
        - split; [apply repeat_length|]. intros j Hj. rewrite (nth_indep _ 0 r) by (rewrite repeat_length; lia). cbn [at_]. apply nth_repeat.
        - split; [assert (M1' : fits n (Ar w)) by (rewrite <- Em; exact M1); exact M1'|reflexivity]. }
      destruct CV as [C1 C2]. destruct (update_one_ready n e (c, s) cv i) as (q' & E' & V'); auto.
      { intros j Hj. rewrite C2, M2, Rmult_comm by auto. apply (HP (name, (c, s)) j); auto. }
      cbn [fst snd] in E'. match goal with |- context [update_one e (with_coll ?A ?B)] => replace (update_one e (with_coll A B)) with (Ok q') by (symmetry; exact E') end. cbn [rbind]. rewrite Eq. cbn [rbind]. exists (q' :: qs). split; [reflexivity|]. cbn [sumR]. rewrite Sq, V', C2 by auto. apply arith. }
  destruct (G l (incl_refl _)) as (qs & Eq & Sq). exists qs. split; [exact Eq|]. rewrite Sq. do 2 f_equal.
  rewrite (sumR_ext _ (fun fp => sumR (fun gp => pat p i (fst fp) (fst gp) * cval i (snd gp)) l)) by (intros fp Hfp; apply MV; auto).
  rewrite sumR_swap. apply sumR_ext. intros gp Hgp. rewrite (sumR_ext _ (fun fp => cval i (snd gp) * pat p i (fst fp) (fst gp))) by (intros; ring).
  rewrite sumR_scal. specialize (HC (fst gp) ltac:(now apply in_map) i Hi). rewrite sumR_map in HC. rewrite HC. ring.
Qed.

Lemma each_inv {A B} (f : A -> result B) l : forall r x, each f l = Ok r -> In x l -> exists y, f x = Ok y.
Proof.
  induction l as [|a l IH]; cbn; intros r x E HI; [tauto|]. destruct (f a) as [y|] eqn:EF; [|discriminate]. cbn [rbind] in E.
  destruct (each f l) as [t|] eqn:ER; [|discriminate]. destruct HI as [<-|HI]; eauto.
Qed.
Lemma mixed_first t12 t13 ps A z : ps <> [] -> mixed (pattern_of t12 t13) ps A = Ok z -> In (flavour A) flavours.
Proof.
  unfold mixed. generalize (Sc 0). intros acc HN M. remember (fun f => lookup ps f) as look eqn:EL.
  rename M into M'. clear EL. destruct ps as [|B r]; [congruence|]. cbn [rfold] in M'. unfold pattern_of in M' at 1.
  destruct (find_entry (flavour A) (flavour B)) as [e|] eqn:EE; [|discriminate]. now apply find_only in EE.
Qed.
