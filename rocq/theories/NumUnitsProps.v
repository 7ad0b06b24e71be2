(* C189-C190: units and constants of numericalunits. *)
From Coq Require Import Reals QArith Qreals List String ZArith Lra Lia.
From Verif Require Import NumUnitsModel NumUnitsSpec NumUnitsProofs.
Import ListNotations.
Local Open Scope string_scope.
Local Open Scope R_scope.

(* For every choice of the base units: every unit and constant has its SI
   value and dimension, prefixes are the SI prefixes, nothing else is exported. *)
Theorem C189_table : forall b, bpos b -> exists g, set_derived b = Some g /\
  (forall r, In r table -> lookup (r_name r) g = Some (row_val b r)) /\
  (forall x v, lookup x g = Some v -> exists r, In r table /\ r_name r = x).
Proof. exact rows_sound. Qed.
Print Assumptions C189_table.

(* A formula that is consistent under dimensional analysis scales with its
   dimension; without dimension it has the same value for every choice. *)
Theorem C189_formulas : forall f d, has_dim f d -> forall b b' g g',
  bpos b -> bpos b' -> set_derived b = Some g -> set_derived b' = Some g' ->
  (fval g f = None <-> fval g' f = None) /\
  (forall v v', fval g f = Some v -> fval g' f = Some v' -> v / dval b d = v' / dval b' d) /\
  (d = one_ -> fval g f = fval g' f).
Proof.
  intros f d Hd b b' g g' Hb Hb' Hg Hg'.
  destruct (rows_sound b Hb) as (g0 & E & Ha & _). rewrite Hg in E. injection E as <-.
  destruct (rows_sound b' Hb') as (g0 & E & Ha' & _). rewrite Hg' in E. injection E as <-.
  destruct (formula_scale f d Hd) as (c & Hc). rewrite (Hc b g Hb Ha), (Hc b' g' Hb' Ha').
  pose proof (dval_pos b d Hb). pose proof (dval_pos b' d Hb'). split; [|split].
  - destruct c; split; congruence.
  - destruct c as [x|]; [|discriminate]. intros v v' E1 E2. injection E1 as <-. injection E2 as <-. field. lra.
  - intros ->. destruct c; [|reflexivity]. now rewrite !dval_one.
Qed.
Print Assumptions C189_formulas.

(* A formula with a dimension and a nonzero value changes under a suitable
   change of the base units: the random units do reveal the mistake. *)
Theorem C189_detects : forall f d, has_dim f d -> d <> one_ -> forall b g v,
  bpos b -> set_derived b = Some g -> fval g f = Some v -> v <> 0 ->
  exists b' g' v', bpos b' /\ set_derived b' = Some g' /\ fval g' f = Some v' /\ v' <> v.
Proof.
  intros f d Hd Nd b g v Hb Hg Hv Nv.
  assert (S : exists b', bpos b' /\ dval b' d <> dval b d).
  { assert (P2 : forall x z, 0 < x -> z <> 0%Z -> powerRZ (2 * x) z <> powerRZ x z).
    { intros x z Hx Hz E. rewrite powerRZ_mult in E. pose proof (powerRZ_lt x z Hx) as P.
      assert (E1 : powerRZ 2 z = 1) by (apply (Rmult_eq_reg_r (powerRZ x z)); lra).
      destruct z as [|p|p]; [now apply Hz| |].
      - cbn [powerRZ] in E1. destruct (Pos2Nat.is_succ p) as [n En]. rewrite En in E1.
        pose proof (Rlt_pow_R1 2 (S n) ltac:(lra) ltac:(lia)). lra.
      - cbn [powerRZ] in E1. destruct (Pos2Nat.is_succ p) as [n En]. rewrite En in E1.
        pose proof (Rlt_pow_R1 2 (S n) ltac:(lra) ltac:(lia)) as L.
        assert (/ 2 ^ S n < 1) by (rewrite <- Rinv_1; apply Rinv_lt_contravar; lra). lra. }
    destruct b as [m0 k0 s0 c0 t0]. destruct Hb as (A & B & C & D & E). cbn in A, B, C, D, E.
    destruct d as [dm dk ds dc dt].
    assert (Cs : dm <> 0%Z \/ dk <> 0%Z \/ ds <> 0%Z \/ dc <> 0%Z \/ dt <> 0%Z).
    { destruct (Z.eq_dec dm 0), (Z.eq_dec dk 0), (Z.eq_dec ds 0), (Z.eq_dec dc 0), (Z.eq_dec dt 0); subst; try tauto. }
    pose proof (powerRZ_lt m0 dm A). pose proof (powerRZ_lt k0 dk B). pose proof (powerRZ_lt s0 ds C).
    pose proof (powerRZ_lt c0 dc D). pose proof (powerRZ_lt t0 dt E).
    destruct Cs as [N|[N|[N|[N|N]]]].
    - exists (mkbases (2 * m0) k0 s0 c0 t0). split; [unfold bpos; cbn; lra|]. unfold dval; cbn [b_m b_kg b_s b_C b_K d_m d_kg d_s d_C d_K].
      intros Q. apply (P2 m0 dm A N). do 4 (apply Rmult_eq_reg_r in Q; [|lra]). exact Q.
    - exists (mkbases m0 (2 * k0) s0 c0 t0). split; [unfold bpos; cbn; lra|]. unfold dval; cbn [b_m b_kg b_s b_C b_K d_m d_kg d_s d_C d_K].
      intros Q. apply (P2 k0 dk B N). do 3 (apply Rmult_eq_reg_r in Q; [|lra]). apply Rmult_eq_reg_l in Q; [|lra]. exact Q.
    - exists (mkbases m0 k0 (2 * s0) c0 t0). split; [unfold bpos; cbn; lra|]. unfold dval; cbn [b_m b_kg b_s b_C b_K d_m d_kg d_s d_C d_K].
      intros Q. apply (P2 s0 ds C N). do 2 (apply Rmult_eq_reg_r in Q; [|lra]). apply Rmult_eq_reg_l in Q; [exact Q|]. apply Rgt_not_eq, Rmult_lt_0_compat; assumption.
    - exists (mkbases m0 k0 s0 (2 * c0) t0). split; [unfold bpos; cbn; lra|]. unfold dval; cbn [b_m b_kg b_s b_C b_K d_m d_kg d_s d_C d_K].
      intros Q. apply (P2 c0 dc D N). apply Rmult_eq_reg_r in Q; [|lra]. apply Rmult_eq_reg_l in Q; [exact Q|]. apply Rgt_not_eq; repeat apply Rmult_lt_0_compat; assumption.
    - exists (mkbases m0 k0 s0 c0 (2 * t0)). split; [unfold bpos; cbn; lra|]. unfold dval; cbn [b_m b_kg b_s b_C b_K d_m d_kg d_s d_C d_K].
      intros Q. apply (P2 t0 dt E N). apply Rmult_eq_reg_l in Q; [exact Q|]. apply Rgt_not_eq; repeat apply Rmult_lt_0_compat; assumption. }
  destruct S as (b' & Hb' & Nb).
  destruct (rows_sound b Hb) as (g0 & E & Ha & _). rewrite Hg in E. injection E as <-.
  destruct (rows_sound b' Hb') as (g' & Hg' & Ha' & _).
  destruct (formula_scale f d Hd) as (c & Hc). rewrite (Hc b g Hb Ha) in Hv. pose proof (Hc b' g' Hb' Ha') as Hv'.
  destruct c as [x|]; [|discriminate]. injection Hv as <-. exists b', g', (x * dval b' d). repeat split; try assumption.
  - apply Hb'. - apply Hb'. - apply Hb'. - apply Hb'. - apply Hb'.
  - intros Q. apply Nb. apply (Rmult_eq_reg_l x); [exact Q|]. intros ->. apply Nv. ring.
Qed.
Print Assumptions C189_detects.

(* reset_units never fails, leaves the generator as it found it, repeats its
   values for the same seed, and 'SI' gives the SI values. *)
Theorem C189_reset : forall (G : Type) (reseed : Z -> G) (entropy : G) (uniform : R -> R -> G -> R * G) sd lo hi g,
  let r := reset_units reseed entropy uniform sd lo hi g in
  snd r = g /\
  (exists b v, bpos b /\ set_derived b = Some v /\ fst r = Some v) /\
  (forall g2, fst (reset_units reseed entropy uniform sd lo hi g2) = fst r) /\
  (sd = SeedSI -> exists v, fst r = Some v /\ forall w, In w table -> lookup (r_name w) v = Some (Q2R (r_q w) * powerRZ PI (r_pi w))).
Proof.
  intros G reseed entropy uniform sd lo hi g r.
  assert (D : forall x, bpos (draw_bases uniform lo hi x)).
  { intros x. unfold draw_bases, draw.
    destruct (uniform lo hi x) as [u1 g1], (uniform lo hi g1) as [u2 g2], (uniform lo hi g2) as [u3 g3],
      (uniform lo hi g3) as [u4 g4], (uniform lo hi g4) as [u5 g5].
    unfold bpos; cbn [b_m b_kg b_s b_C b_K]. unfold Rpower. repeat split; apply exp_pos. }
  assert (P1 : bpos (mkbases 1 1 1 1 1)) by (unfold bpos; cbn; lra).
  split; [|split; [|split]].
  - unfold r. destruct sd; reflexivity.
  - destruct sd as [| |n].
    + destruct (rows_sound _ (D entropy)) as (v & E & _). exists (draw_bases uniform lo hi entropy), v. auto.
    + destruct (rows_sound _ P1) as (v & E & _). exists (mkbases 1 1 1 1 1), v. auto.
    + destruct (rows_sound _ (D (reseed n))) as (v & E & _). exists (draw_bases uniform lo hi (reseed n)), v. auto.
  - intros g2. unfold r. destruct sd; reflexivity.
  - intros ->. destruct (rows_sound _ P1) as (v & E & Ha & _). exists v. split; [exact E|]. intros w Hw. rewrite (Ha w Hw). f_equal.
    unfold row_val, dval; cbn [b_m b_kg b_s b_C b_K]. rewrite !powerRZ_R1. ring.
Qed.
Print Assumptions C189_reset.

(* the base units that reset_units draws lie in the powers of ten of the range *)
Theorem C189_range : forall (G : Type) (uniform : R -> R -> G -> R * G) lo hi g,
  (forall x, lo <= fst (uniform lo hi x) <= hi) ->
  let b := draw_bases uniform lo hi g in
  List.Forall (fun v => Rpower 10 lo <= v <= Rpower 10 hi) [b_m b; b_kg b; b_s b; b_C b; b_K b].
Proof.
  intros G uniform lo hi g H. unfold draw_bases, draw.
  pose proof (H g) as H1. destruct (uniform lo hi g) as [u1 g1]. pose proof (H g1) as H2. destruct (uniform lo hi g1) as [u2 g2].
  pose proof (H g2) as H3. destruct (uniform lo hi g2) as [u3 g3]. pose proof (H g3) as H4. destruct (uniform lo hi g3) as [u4 g4].
  pose proof (H g4) as H5. destruct (uniform lo hi g4) as [u5 g5]. cbn [fst] in *.
  assert (M : forall u, lo <= u <= hi -> Rpower 10 lo <= Rpower 10 u <= Rpower 10 hi).
  { intros u Hu. split; apply Rle_Rpower; lra. }
  cbn [b_m b_kg b_s b_C b_K]. do 5 (apply List.Forall_cons; [now apply M|]). apply List.Forall_nil.
Qed.
Print Assumptions C189_range.

Lemma row_in x r : find (fun w => String.eqb (r_name w) x) table = Some r -> In r table.
Proof. intros H. exact (proj1 (find_some _ _ H)). Qed.

(* 100 km/hour over the speed of light: the same pure number in all units *)
Example C189_speed : forall b b' g g', bpos b -> bpos b' -> set_derived b = Some g -> set_derived b' = Some g' ->
  let f := FDiv (FDiv (FMul (FNum 100) (FUnit "km")) (FUnit "hour")) (FUnit "c0") in
  fval g f = fval g' f /\ fval g f <> None.
Proof.
  intros b b' g g' Hb Hb' Hg Hg' f.
  assert (R1 : In (mkrow "km" (ten 3 * 1) 0 length_) table) by (apply (row_in "km"); vm_compute; reflexivity).
  assert (R2 : In (mkrow "hour" 3600 0 time_) table) by (apply (row_in "hour"); vm_compute; reflexivity).
  assert (R3 : In (mkrow "c0" 299792458 0 (mkdim 1 0 (-1) 0 0)) table) by (apply (row_in "c0"); vm_compute; reflexivity).
  assert (H : has_dim f one_).
  { change one_ with (let d := (let d := (let d := one_ in let e := length_ in mkdim (d_m d + d_m e) (d_kg d + d_kg e) (d_s d + d_s e) (d_C d + d_C e) (d_K d + d_K e)) in
      let e := time_ in mkdim (d_m d - d_m e) (d_kg d - d_kg e) (d_s d - d_s e) (d_C d - d_C e) (d_K d - d_K e)) in
      let e := mkdim 1 0 (-1) 0 0 in mkdim (d_m d - d_m e) (d_kg d - d_kg e) (d_s d - d_s e) (d_C d - d_C e) (d_K d - d_K e)).
    apply HDiv; [apply HDiv; [apply HMul; [apply HNum|exact (HUnit _ R1)]|exact (HUnit _ R2)]|exact (HUnit _ R3)]. }
  split; [exact (proj2 (proj2 (C189_formulas f one_ H b b' g g' Hb Hb' Hg Hg')) eq_refl)|].
  destruct (rows_sound b Hb) as (g0 & E & Ha & _). rewrite Hg in E. injection E as <-.
  unfold f. cbn [fval]. rewrite (Ha _ R1 : lookup "km" g = _), (Ha _ R2 : lookup "hour" g = _), (Ha _ R3 : lookup "c0" g = _).
  assert (P : forall q z d, 0 < Q2R q -> row_val b (mkrow "" q z d) <> 0).
  { intros q z d Hq. unfold row_val; cbn [r_q r_pi r_dim]. apply Rgt_not_eq. apply Rmult_lt_0_compat; [apply Rmult_lt_0_compat; [exact Hq|apply powerRZ_lt, PI_RGT_0]|now apply dval_pos]. }
  assert (Q1 : 0 < Q2R 3600) by (unfold Q2R; cbn; lra). assert (Q3 : 0 < Q2R 299792458) by (unfold Q2R; cbn; lra).
  destruct (Req_EM_T _ 0) as [Z|_]; [exfalso; exact (P _ _ _ Q1 Z)|].
  destruct (Req_EM_T _ 0) as [Z|_]; [exfalso; exact (P _ _ _ Q3 Z)|]. discriminate.
Qed.

(* The constants agree with each other, in every choice of units. *)
Theorem C190_relations : forall b g, bpos b -> set_derived b = Some g -> forall l r tol, In (l, r, tol) relations ->
  exists x y, eval g l = Some x /\ eval g r = Some y /\ 0 < y /\ Rabs (x / y - 1) <= Q2R tol.
Proof. intros b g. apply rels_sound. vm_compute. reflexivity. Qed.
Print Assumptions C190_relations.

(* The year is sidereal, the light-year is a Julian year of light: the distance
   light travels in nu.year exceeds nu.lightyear by 17.4 to 17.5 parts in a million. *)
Theorem C190_lightyear : forall b g, bpos b -> set_derived b = Some g ->
  exists y l c, lookup "year" g = Some y /\ lookup "lightyear" g = Some l /\ lookup "c0" g = Some c /\
  174 / 10000000 * l < c * y - l < 175 / 10000000 * l.
Proof.
  intros b g Hb Hg. destruct (rows_sound b Hb) as (g0 & E & Ha & _). rewrite Hg in E. injection E as <-.
  assert (R1 : In (mkrow "year" (315581497635456 # 10000000) 0 time_) table) by (apply (row_in "year"); vm_compute; reflexivity).
  assert (R2 : In (mkrow "lightyear" (9460730472580800 # 1) 0 length_) table) by (apply (row_in "lightyear"); vm_compute; reflexivity).
  assert (R3 : In (mkrow "c0" 299792458 0 (mkdim 1 0 (-1) 0 0)) table) by (apply (row_in "c0"); vm_compute; reflexivity).
  do 3 eexists. split; [exact (Ha _ R1)|]. split; [exact (Ha _ R2)|]. split; [exact (Ha _ R3)|].
  destruct Hb as (Pm & _ & Ps & _). unfold row_val, dval; cbn -[PI IZR Q2R Pos.to_nat]. change (Pos.to_nat 1) with 1%nat.
  unfold Q2R; cbn [Qnum Qden]. set (L := b_m b) in *. set (s := b_s b) in *.
  match goal with |- _ < ?A * ?B - _ < _ =>
    replace (A * B) with (299792458 * (315581497635456 / 10000000) * L) by (field; lra) end.
  split; nra.
Qed.
Print Assumptions C190_lightyear.

(* all nineteen relations are meant, and some base units exist *)
Example C190_case : List.length relations = 19%nat /\ exists g, set_derived (mkbases 2 3 5 7 11) = Some g.
Proof.
  split; [reflexivity|]. destruct (rows_sound (mkbases 2 3 5 7 11)) as (g & E & _); [unfold bpos; cbn; lra|]. eauto.
Qed.
