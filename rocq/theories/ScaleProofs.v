(* Changing the unit of energy the compiled code works in. *)
From Coq Require Import Reals Lra Lia Psatz.
From Coquelicot Require Import Coquelicot.
From Verif Require Import Base FunctionalModel GridsModel DsModel DsProofs BoundsModel BoundsProofs Integrate3Model Integrate4Model.
Open Scope R_scope.
Local Notation length := List.length.
Local Notation energy := BoundsModel.energy.

Lemma if_lt_scale {A} l x y (a b : A) : 0 < l -> (if Rlt_dec (l * x) (l * y) then a else b) = if Rlt_dec x y then a else b.
Proof. intros. destruct (Rlt_dec (l * x) (l * y)), (Rlt_dec x y); auto; nra. Qed.
Lemma if_le_scale {A} l x y (a b : A) : 0 < l -> (if Rle_dec (l * x) (l * y) then a else b) = if Rle_dec x y then a else b.
Proof. intros. destruct (Rle_dec (l * x) (l * y)), (Rle_dec x y); auto; nra. Qed.
Lemma if_eq0_scale {A} l x (a b : A) : 0 < l -> (if Req_EM_T (l * x) 0 then a else b) = if Req_EM_T x 0 then a else b.
Proof.
  intros. destruct (Req_EM_T (l * x) 0) as [E|N], (Req_EM_T x 0) as [E'|N']; auto; exfalso.
  - apply N'. apply Rmult_integral in E. destruct E; lra.
  - subst. apply N. ring.
Qed.
Lemma sgn_scale l x : 0 < l -> sgn (l * x) = sgn x.
Proof. intros. unfold sgn. destruct (Rlt_dec 0 (l * x)), (Rlt_dec 0 x), (Rlt_dec (l * x) 0), (Rlt_dec x 0); auto; nra. Qed.
Lemma Rabs_scale l x : 0 < l -> Rabs (l * x) = l * Rabs x.
Proof. intros. rewrite Rabs_mult, (Rabs_pos_eq l); lra. Qed.
Lemma sqrt_scale l x : 0 < l -> sqrt (l ^ 2 * x) = l * sqrt x.
Proof. intros. rewrite sqrt_mult_alt by (apply pow2_ge_0). rewrite sqrt_pow2 by lra. reflexivity. Qed.
Lemma energy_scale' l p m : 0 < l -> energy (l * p) (l * m) = l * energy p m.
Proof. intros. unfold energy. replace ((l * p) ^ 2 + (l * m) ^ 2) with (l ^ 2 * (p ^ 2 + m ^ 2)) by ring. now apply sqrt_scale. Qed.
Lemma Rmax_scale l x y : 0 < l -> Rmax (l * x) (l * y) = l * Rmax x y.
Proof. intros. unfold Rmax. destruct (Rle_dec (l * x) (l * y)), (Rle_dec x y); auto; nra. Qed.
Lemma Rmin_scale l x y : 0 < l -> Rmin (l * x) (l * y) = l * Rmin x y.
Proof. intros. unfold Rmin. destruct (Rle_dec (l * x) (l * y)), (Rle_dec x y); auto; nra. Qed.

Lemma D1_scale l a b c d : 0 < l -> D1 (l * a) (l * b) (l * c) (l * d) = l * D1 a b c d.
Proof.
  intros Hl. unfold D1.
  replace (l * a + l * b - l * c - l * d) with (l * (a + b - c - d)) by ring.
  replace (l * a - l * b + l * c - l * d) with (l * (a - b + c - d)) by ring.
  replace (l * a + l * b + l * c - l * d) with (l * (a + b + c - d)) by ring.
  replace (l * a - l * b - l * c + l * d) with (l * (a - b - c + d)) by ring.
  replace (l * a + l * b - l * c + l * d) with (l * (a + b - c + d)) by ring.
  replace (l * a - l * b + l * c + l * d) with (l * (a - b + c + d)) by ring.
  replace (- (l * a) + l * b + l * c + l * d) with (l * (- a + b + c + d)) by ring.
  replace (l * a + l * b + l * c + l * d) with (l * (a + b + c + d)) by ring.
  rewrite !Rabs_scale by exact Hl. ring.
Qed.
Lemma swapped_scale body body' l a b c d k : 0 < l -> (forall a b c d, body (l * a) (l * b) (l * c) (l * d) = k * body' a b c d) ->
  swapped body (l * a) (l * b) (l * c) (l * d) = k * swapped body' a b c d.
Proof.
  intros Hl HB. unfold swapped.
  destruct (Rlt_dec (l * a) (l * b)), (Rlt_dec a b), (Rlt_dec (l * c) (l * d)), (Rlt_dec c d); try nra; apply HB.
Qed.
Lemma D2_body_scale l a b c d : 0 < l -> D2_body (l * a) (l * b) (l * c) (l * d) = l ^ 3 * D2_body a b c d.
Proof.
  intros Hl. unfold D2_body.
  replace (l * a + l * b - l * c - l * d) with (l * (a + b - c - d)) by ring.
  replace (l * a - l * b + l * c - l * d) with (l * (a - b + c - d)) by ring.
  replace (l * a + l * b + l * c - l * d) with (l * (a + b + c - d)) by ring.
  replace (l * a - l * b - l * c + l * d) with (l * (a - b - c + d)) by ring.
  replace (l * a + l * b - l * c + l * d) with (l * (a + b - c + d)) by ring.
  replace (l * a - l * b + l * c + l * d) with (l * (a - b + c + d)) by ring.
  replace (- (l * a) + l * b + l * c + l * d) with (l * (- a + b + c + d)) by ring.
  replace (l * a + l * b + l * c + l * d) with (l * (a + b + c + d)) by ring.
  replace (l * a - l * b - l * c - l * d) with (l * (a - b - c - d)) by ring.
  rewrite !Rabs_scale, !sgn_scale by exact Hl. field.
Qed.
Lemma D2_scale l a b c d : 0 < l -> D2 (l * a) (l * b) (l * c) (l * d) = l ^ 3 * D2 a b c d.
Proof. intros. apply swapped_scale; auto. intros. now apply D2_body_scale. Qed.
Lemma D3_body_scale l a b c d : 0 < l -> D3_body (l * a) (l * b) (l * c) (l * d) = l ^ 5 * D3_body a b c d.
Proof.
  intros Hl. unfold D3_body.
  replace (l * b + l * c + l * d) with (l * (b + c + d)) by ring.
  replace (l * b + l * a + l * d) with (l * (b + a + d)) by ring.
  rewrite <- (Rmult_plus_distr_l l c d), <- (Rmult_plus_distr_l l a b), <- (Rmult_plus_distr_l l b c), <- (Rmult_plus_distr_l l a d).
  rewrite !if_lt_scale, !if_le_scale by exact Hl.
  repeat match goal with |- context [if ?x then _ else _] => destruct x end; field.
Qed.
Lemma D3_scale l a b c d : 0 < l -> D3 (l * a) (l * b) (l * c) (l * d) = l ^ 5 * D3 a b c d.
Proof. intros. apply swapped_scale; auto. intros. now apply D3_body_scale. Qed.

Lemma Dfun_scale l p E m p' E' m' K1 K2 order sides : 0 < l ->
  (forall n, p' n = l * p n) -> (forall n, E' n = l * E n) -> (forall n, m' n = l * m n) ->
  Dfun p' E' m' K1 K2 order sides = l ^ 5 * Dfun p E m K1 K2 order sides.
Proof.
  intros Hl HP HE HM. destruct order as [[[i j] k] q]. unfold Dfun. rewrite !HP, !HE, !HM, D1_scale, D3_scale, !D2_scale by exact Hl.
  destruct (Req_EM_T K1 0), (Req_EM_T K2 0); ring.
Qed.
Lemma sort3_scale l a b c : 0 < l -> sort3 (l * a) (l * b) (l * c) = let '(x, y, z) := sort3 a b c in (l * x, l * y, l * z).
Proof.
  intros Hl. unfold sort3. rewrite if_lt_scale by exact Hl. destruct (Rlt_dec a b); rewrite if_lt_scale by exact Hl; destruct (Rlt_dec _ c); rewrite if_lt_scale by exact Hl; destruct (Rlt_dec _ _); reflexivity.
Qed.
Lemma Db1_scale l a b c : 0 < l -> Db1 (l * a) (l * b) (l * c) = Db1 a b c.
Proof.
  intros Hl. unfold Db1. rewrite sort3_scale by exact Hl. destruct (sort3 a b c) as [[x y] z].
  replace (l * x + l * y - l * z) with (l * (x + y - z)) by ring.
  replace (l * x - l * y + l * z) with (l * (x - y + z)) by ring.
  replace (l * x - l * y - l * z) with (l * (x - y - z)) by ring.
  replace (l * x + l * y + l * z) with (l * (x + y + z)) by ring.
  now rewrite !sgn_scale by exact Hl.
Qed.
Lemma Db2_body_scale l a b c : 0 < l -> Db2_body (l * a) (l * b) (l * c) = l ^ 2 * Db2_body a b c.
Proof.
  intros Hl. unfold Db2_body.
  replace (l * a - l * b + l * c) with (l * (a - b + c)) by ring.
  replace (- (l * a) + l * b + l * c) with (l * (- a + b + c)) by ring.
  replace (l * a - l * b - l * c) with (l * (a - b - c)) by ring.
  replace (l * a + l * b - l * c) with (l * (a + b - c)) by ring.
  rewrite !Rabs_scale, !sgn_scale by exact Hl. field.
Qed.
Lemma Db2_scale l a b c : 0 < l -> Db2 (l * a) (l * b) (l * c) = l ^ 2 * Db2 a b c.
Proof. intros Hl. unfold Db2. rewrite if_lt_scale by exact Hl. destruct (Rlt_dec b c); now apply Db2_body_scale. Qed.
Lemma Db_scale l p E m p' E' m' K1 K2 order sides : 0 < l ->
  (forall n, p' n = l * p n) -> (forall n, E' n = l * E n) -> (forall n, m' n = l * m n) ->
  Db p' E' m' K1 K2 order sides = l ^ 3 * Db p E m K1 K2 order sides.
Proof.
  intros Hl HP HE HM. destruct order as [[[i j] k] q]. unfold Db. rewrite !HP, !HE, !HM, Db1_scale, !Db2_scale by exact Hl.
  destruct (Req_EM_T K1 0), (Req_EM_T K2 0); try ring; destruct (i * j =? 0)%nat, (k * q =? 0)%nat; ring.
Qed.

(* rs' is the reaction rs with masses and momenta measured in a unit which is l
   times smaller *)
Definition rescaled (l : R) (rs rs' : nat -> participant) : Prop :=
  forall n, mass (rs' n) = l * mass (rs n) /\ plg (rs' n) = plg (rs n) /\ forall q, occ (rs' n) (l * q) = occ (rs n) q.

Lemma rescaled_mass l rs rs' n : rescaled l rs rs' -> masses_of rs' n = l * masses_of rs n.
Proof. intros H. apply H. Qed.
Lemma rescaled_side l rs rs' n : rescaled l rs rs' -> sides_of rs' n = sides_of rs n.
Proof. intros H. unfold sides_of. now destruct (H n) as (_ & -> & _). Qed.
Lemma rescaled_sum l rs rs' n : rescaled l rs rs' -> side_sum rs' n = side_sum rs n.
Proof.
  intros H. unfold side_sum. generalize 0%Z. generalize (seq 0 n). intros s. induction s as [|k s IH]; intros z; cbn; [reflexivity|].
  rewrite (rescaled_side l rs rs' k H). apply IH.
Qed.
Lemma rescaled_legs l rs rs' n : rescaled l rs rs' -> legs rs' n = legs rs n.
Proof. intros H. apply map_ext. intros k. apply H. Qed.
Lemma rescaled_occ l rs rs' p p' : rescaled l rs rs' -> (forall n, p' n = l * p n) -> forall n k, occupations rs' p' k n = occupations rs p k n.
Proof.
  intros H HP n. induction n as [|n IH]; intros k; cbn [occupations]; [reflexivity|].
  rewrite IH, HP. destruct (H k) as (_ & _ & ->). reflexivity.
Qed.

Lemma momenta4_scale l rs rs' p0 p1 p2 : 0 < l -> rescaled l rs rs' ->
  match momenta4 rs p0 p1 p2, momenta4 rs' (l * p0) (l * p1) (l * p2) with
  | None, None => True
  | Some (p, E), Some (p', E') => (forall n, p' n = l * p n) /\ (forall n, E' n = l * E n)
  | _, _ => False
  end.
Proof.
  intros Hl H. unfold momenta4. cbv zeta. rewrite !(rescaled_mass l rs rs' _ H), !(rescaled_side l rs rs' _ H), !energy_scale' by exact Hl.
  set (E3 := (0 + IZR (sides_of rs 0%nat) * energy p0 (masses_of rs 0%nat) + IZR (sides_of rs 1%nat) * energy p1 (masses_of rs 1%nat) + IZR (sides_of rs 2%nat) * energy p2 (masses_of rs 2%nat)) * - IZR (sides_of rs 3%nat)).
  match goal with |- context [Rlt_dec ?a (l * masses_of rs 3%nat)] => replace a with (l * E3) by (unfold E3; ring) end.
  destruct (Rlt_dec E3 (masses_of rs 3%nat)), (Rlt_dec (l * E3) (l * masses_of rs 3%nat)); try nra; auto.
  split; intros [|[|[|j]]]; try reflexivity.
  replace ((l * E3) ^ 2 - (l * masses_of rs 3%nat) ^ 2) with (l ^ 2 * (E3 ^ 2 - masses_of rs 3%nat ^ 2)) by ring. now apply sqrt_scale.
Qed.
Lemma in_bounds4_scale l p E m p' E' m' : 0 < l -> (forall n, p' n = l * p n) -> (forall n, E' n = l * E n) -> (forall n, m' n = l * m n) ->
  in_bounds4 p' E' m' = in_bounds4 p E m.
Proof.
  intros Hl HP HE HM. unfold in_bounds4. rewrite !HP, !HE, !HM. rewrite !if_lt_scale by exact Hl.
  destruct (Rlt_dec (p 0%nat) (p 1%nat)), (Rlt_dec (p 2%nat) (p 3%nat)); cbv beta iota;
  rewrite <- !Rmult_plus_distr_l, !if_le_scale by exact Hl; reflexivity.
Qed.
Lemma velocity_scale l p m : 0 < l -> velocity (l * p) (l * m) = velocity p m.
Proof.
  intros Hl. unfold velocity. rewrite if_eq0_scale by exact Hl. destruct (Req_EM_T m 0) as [|N]; [reflexivity|].
  rewrite energy_scale' by exact Hl. assert (0 < energy p m).
  { unfold BoundsModel.energy. apply sqrt_lt_R0. pose proof (pow2_ge_0 p). assert (0 < m ^ 2) by nra. lra. }
  field. split; lra.
Qed.
Lemma fold_scale {A} (f g : A -> R) k ms x : (forall M, In M ms -> f M = k * g M) -> fold_left (fun ds M => ds + f M) ms (k * x) = k * fold_left (fun ds M => ds + g M) ms x.
Proof.
  revert x. induction ms as [|M ms IH]; intros x H; cbn [fold_left]; [reflexivity|].
  rewrite (H M) by (now left). rewrite <- Rmult_plus_distr_l. apply IH. intros. apply H. now right.
Qed.
Lemma kernel_scale l p E m p' E' m' sides M Ms : 0 < l -> (forall n, p' n = l * p n) -> (forall n, E' n = l * E n) -> (forall n, m' n = l * m n) ->
  K M = 0 -> kernel p' E' m' sides M Ms = l ^ 3 * kernel p E m sides M Ms.
Proof.
  intros Hl HP HE HM HK. unfold kernel. destruct (Req_EM_T (K M) 0) as [_|]; [|contradiction].
  rewrite (HP 0%nat), if_eq0_scale by exact Hl. destruct (Req_EM_T (p 0%nat) 0) as [E0|N0].
  - rewrite <- (fold_scale (fun M => Db p' E' m' (K1 M) (K2 M) (order M) sides)) with (k := l ^ 3) by (intros; now apply Db_scale). now rewrite Rmult_0_r.
  - replace 0 with (l ^ 5 * 0) at 1 by ring.
    rewrite (fold_scale (fun M => Dfun p' E' m' (K1 M) (K2 M) (order M) sides) (fun M => Dfun p E m (K1 M) (K2 M) (order M) sides)) by (intros; now apply Dfun_scale).
    rewrite HE. unfold Rdiv. set (F := fold_left _ _ _). 
    destruct (Req_EM_T (E 0%nat) 0) as [Z|NZ].
    + rewrite Z, !Rmult_0_r, Rinv_0. ring.
    + field. repeat split; lra.
Qed.
Lemma integrand4_scale l rs rs' M Ms k p0 p1 p2 n : 0 < l -> rescaled l rs rs' -> (K M = 0 /\ n = 3%nat \/ K M <> 0 /\ n = 0%nat) ->
  integrand4 rs' M Ms k (l * p0) (l * p1) (l * p2) = rmap (fun x => l ^ n * x) (integrand4 rs M Ms k p0 p1 p2).
Proof.
  intros Hl H HK. pose proof (momenta4_scale l rs rs' p0 p1 p2 Hl H) as HMm. unfold integrand4.
  destruct (momenta4 rs p0 p1 p2) as [[p E]|], (momenta4 rs' (l * p0) (l * p1) (l * p2)) as [[p' E']|]; try contradiction; [|cbn; f_equal; ring].
  destruct HMm as (HP & HE). assert (HMs : forall j, masses_of rs' j = l * masses_of rs j) by (intros; now apply rescaled_mass).
  cbv zeta. rewrite (in_bounds4_scale l p E (masses_of rs) p' E' (masses_of rs') Hl HP HE HMs).
  destruct (in_bounds4 p E (masses_of rs)); [|cbn; f_equal; ring].
  rewrite !HMs, !velocity_scale by exact Hl.
  set (V := velocity p1 (masses_of rs 1%nat) * velocity p2 (masses_of rs 2%nat)).
  destruct (Req_EM_T V 0); [cbn; f_equal; ring|].
  assert (HKE : kernel p' E' (masses_of rs') (sides_of rs') M Ms = l ^ n * kernel p E (masses_of rs) (sides_of rs) M Ms).
  { destruct HK as [(HK & ->)|(HK & ->)].
    - rewrite <- (kernel_scale l p E (masses_of rs) p' E' (masses_of rs')) by assumption.
      unfold kernel. destruct (Req_EM_T (K M) 0) as [_|]; [|contradiction].
      assert (HS : forall ms x, fold_left (fun ds M => ds + Db p' E' (masses_of rs') (K1 M) (K2 M) (order M) (sides_of rs')) ms x = fold_left (fun ds M => ds + Db p' E' (masses_of rs') (K1 M) (K2 M) (order M) (sides_of rs)) ms x).
      { intros ms. induction ms as [|A ms IH]; intros x; cbn [fold_left]; [reflexivity|]. rewrite IH. f_equal. f_equal. unfold Db. destruct (order A) as [[[i j] a] b]. now rewrite !(rescaled_side l rs rs' _ H). }
      assert (HS' : forall ms x, fold_left (fun ds M => ds + Dfun p' E' (masses_of rs') (K1 M) (K2 M) (order M) (sides_of rs')) ms x = fold_left (fun ds M => ds + Dfun p' E' (masses_of rs') (K1 M) (K2 M) (order M) (sides_of rs)) ms x).
      { intros ms. induction ms as [|A ms IH]; intros x; cbn [fold_left]; [reflexivity|]. rewrite IH. f_equal. f_equal. unfold Dfun. destruct (order A) as [[[i j] a] b]. now rewrite !(rescaled_side l rs rs' _ H). }
      rewrite HS, HS'. reflexivity.
    - unfold kernel. destruct (Req_EM_T (K M) 0) as [|_]; [contradiction|]. ring. }
  rewrite HKE. replace (V * (l ^ n * kernel p E (masses_of rs) (sides_of rs) M Ms)) with (l ^ n * (V * kernel p E (masses_of rs) (sides_of rs) M Ms)) by ring.
  rewrite if_eq0_scale by (now apply pow_lt). destruct (Req_EM_T _ 0); [cbn; f_equal; ring|].
  rewrite (rescaled_occ l rs rs' p p' H HP), (rescaled_legs l rs rs' 4 H).
  destruct (occupations rs p 0 4) as [f|]; cbn [rbind rmap]; [|reflexivity]. destruct (functional k (legs rs 4) f); cbn [rbind rmap]; [|reflexivity]. f_equal. ring.
Qed.

(* the limits *)
Definition osc (l : R) (x : option R) : option R := option_map (fun y => l * y) x.
Lemma csqrt_scale l x : 0 < l -> csqrt (l ^ 2 * x) = osc l (csqrt x).
Proof.
  intros Hl. unfold csqrt. assert (0 < l ^ 2) by (now apply pow_lt).
  destruct (Rlt_dec (l ^ 2 * x) 0), (Rlt_dec x 0); try nra; [reflexivity|]. cbn [osc option_map]. now rewrite sqrt_scale.
Qed.
Lemma root_or_scale l d e m : 0 < l -> root_or (osc l d) (l * e) (l * m) = osc l (root_or d e m).
Proof.
  intros Hl. unfold root_or. replace ((l * e) ^ 2 - (l * m) ^ 2) with (l ^ 2 * (e ^ 2 - m ^ 2)) by ring.
  destruct (Rle_dec e 0) as [A|A], (Rle_dec (l * e) 0) as [B|B]; try nra; [reflexivity|].
  assert (0 < l ^ 2) by (now apply pow_lt).
  destruct (Rle_dec (e ^ 2 - m ^ 2) 0) as [C|C], (Rle_dec (l ^ 2 * (e ^ 2 - m ^ 2)) 0) as [D|D]; try nra; [reflexivity|].
  cbn [osc option_map]. now rewrite sqrt_scale.
Qed.
Lemma scat_root_scale l m m' p1 : 0 < l -> (forall n, m' n = l * m n) -> scat_root m' (l * p1) = osc (l ^ 3) (scat_root m p1).
Proof.
  intros Hl HM. unfold scat_root. cbv zeta. rewrite !HM.
  replace ((l * m 1%nat) ^ 2 + (l * p1) ^ 2) with (l ^ 2 * (m 1%nat ^ 2 + p1 ^ 2)) by ring. rewrite sqrt_scale by exact Hl.
  set (s := sqrt (m 1%nat ^ 2 + p1 ^ 2)). rewrite <- csqrt_scale by (now apply pow_lt). f_equal. ring.
Qed.
Lemma scat_temp_scale l m m' p1 : 0 < l -> (forall n, m' n = l * m n) -> scat_temp m' (l * p1) = (l ^ 3) ^ 2 * scat_temp m p1.
Proof.
  intros Hl HM. unfold scat_temp. cbv zeta. rewrite !HM.
  match goal with |- (if Rlt_dec ?a 0 then _ else _) = _ * (if Rlt_dec ?b 0 then _ else _) => set (X := b); replace a with ((l ^ 3) ^ 2 * X) by (unfold X; ring) end.
  assert (0 < (l ^ 3) ^ 2) by (repeat apply pow_lt; exact Hl).
  destruct (Rlt_dec X 0), (Rlt_dec ((l ^ 3) ^ 2 * X) 0); try nra.
Qed.
Lemma all_zero_scale l a b c : 0 < l -> all_zero (l * a) (l * b) (l * c) = all_zero a b c.
Proof. intros. unfold all_zero. now rewrite !if_eq0_scale by assumption. Qed.
Lemma omax0_scale l x : 0 < l -> omax0 (osc l x) = osc l (omax0 x).
Proof. intros. destruct x as [x|]; cbn; [|reflexivity]. f_equal. rewrite <- Rmax_scale by assumption. f_equal. ring. Qed.
Lemma p2_min_scat_scale l m m' p0 p1 : 0 < l -> (forall n, m' n = l * m n) -> p2_min_scat m' (l * p0) (l * p1) = osc l (p2_min_scat m p0 p1).
Proof.
  intros Hl HM. unfold p2_min_scat. rewrite (scat_root_scale l m m' p1 Hl HM), (scat_temp_scale l m m' p1 Hl HM), !HM.
  rewrite !if_eq0_scale, all_zero_scale by exact Hl.
  rewrite <- !Rmult_plus_distr_l, if_lt_scale by exact Hl.
  destruct (Req_EM_T p0 0); [|cbn; f_equal; ring].
  destruct (Req_EM_T (m 0%nat) 0) as [E0|N0].
  - destruct (Req_EM_T (m 1%nat) 0) as [E1|N1]; cbn [osc option_map]; [f_equal; ring|]. f_equal.
    rewrite sqrt_scale by (now apply pow_lt). rewrite <- Rmax_scale by exact Hl. f_equal; field; split; lra.
  - destruct (all_zero _ _ _); [cbn; f_equal; field|]. destruct (Rlt_dec _ _); [|cbn; f_equal; ring].
    rewrite <- omax0_scale by exact Hl. f_equal.
    replace ((l * m 1%nat) ^ 2 + (l * p1) ^ 2) with (l ^ 2 * (m 1%nat ^ 2 + p1 ^ 2)) by ring. rewrite sqrt_scale by exact Hl.
    set (s := sqrt (m 1%nat ^ 2 + p1 ^ 2)). destruct (scat_root m p1) as [rt|]; cbn [osc option_map]; [|reflexivity]. f_equal.
    replace (2 * ((l * m 0%nat + l * s) ^ 2 - (l * p1) ^ 2)) with (l ^ 2 * (2 * ((m 0%nat + s) ^ 2 - p1 ^ 2))) by ring.
    set (d := 2 * ((m 0%nat + s) ^ 2 - p1 ^ 2)). unfold Rdiv. 
    destruct (Req_EM_T d 0) as [Z|NZ]; [rewrite Z, !Rmult_0_r, Rinv_0; ring|]. field. split; lra.
Qed.
Lemma p2_max_scat_scale l m m' p0 p1 : 0 < l -> (forall n, m' n = l * m n) -> p2_max_scat m' (l * p0) (l * p1) = osc l (p2_max_scat m p0 p1).
Proof.
  intros Hl HM. unfold p2_max_scat. rewrite (scat_root_scale l m m' p1 Hl HM), (scat_temp_scale l m m' p1 Hl HM), !HM.
  rewrite !if_eq0_scale, all_zero_scale, !energy_scale' by exact Hl.
  rewrite <- !Rmult_plus_distr_l, if_lt_scale by exact Hl.
  destruct (Req_EM_T p0 0).
  2:{ rewrite <- csqrt_scale by exact Hl. f_equal. ring. }
  destruct (Req_EM_T (m 0%nat) 0) as [E0|N0].
  - destruct (Req_EM_T (m 1%nat) 0) as [E1|N1]; cbn [osc option_map]; [f_equal; ring|]. f_equal.
    rewrite sqrt_scale by (now apply pow_lt). field; split; lra.
  - destruct (all_zero _ _ _); [cbn; f_equal; field|]. destruct (Rlt_dec _ _).
    2:{ rewrite <- csqrt_scale by exact Hl. f_equal. ring. }
    rewrite <- omax0_scale by exact Hl. f_equal.
    replace ((l * m 1%nat) ^ 2 + (l * p1) ^ 2) with (l ^ 2 * (m 1%nat ^ 2 + p1 ^ 2)) by ring. rewrite sqrt_scale by exact Hl.
    set (s := sqrt (m 1%nat ^ 2 + p1 ^ 2)). destruct (scat_root m p1) as [rt|]; cbn [osc option_map]; [|reflexivity]. f_equal.
    replace (2 * ((l * m 0%nat + l * s) ^ 2 - (l * p1) ^ 2)) with (l ^ 2 * (2 * ((m 0%nat + s) ^ 2 - p1 ^ 2))) by ring.
    set (d := 2 * ((m 0%nat + s) ^ 2 - p1 ^ 2)). unfold Rdiv. 
    destruct (Req_EM_T d 0) as [Z|NZ]; [rewrite Z, !Rmult_0_r, Rinv_0; ring|]. field. split; lra.
Qed.

Lemma p2_max_dec_scale l m m' p0 p1 : 0 < l -> (forall n, m' n = l * m n) -> p2_max_dec m' (l * p0) (l * p1) = osc l (p2_max_dec m p0 p1).
Proof. intros Hl HM. unfold p2_max_dec. rewrite !HM, !energy_scale' by exact Hl. rewrite <- csqrt_scale by exact Hl. f_equal. ring. Qed.

Definition lsc (l : R) (x : option (option R * option R)) : option (option R * option R) :=
  option_map (fun y => (osc l (fst y), osc l (snd y))) x.
Lemma p2_limits_scale l rs rs' min_2 max_2 max_3 p0 p1 : 0 < l -> rescaled l rs rs' ->
  p2_limits rs' (osc l min_2) (osc l max_2) (l * max_3) (l * p0) (l * p1) = lsc l (p2_limits rs min_2 max_2 max_3 p0 p1).
Proof.
  intros Hl H. assert (HM : forall j, masses_of rs' j = l * masses_of rs j) by (intros; now apply rescaled_mass).
  unfold p2_limits. cbv zeta. rewrite (rescaled_sum l rs rs' 4 H).
  rewrite (p2_min_scat_scale l (masses_of rs)), (p2_max_scat_scale l (masses_of rs)), (p2_max_dec_scale l (masses_of rs)) by assumption.
  rewrite !HM, !energy_scale' by exact Hl. rewrite <- !Rmult_minus_distr_l.
  set (m := masses_of rs). pose proof (root_or_scale l None) as RN. pose proof (root_or_scale l (Some 0)) as R0. cbn [osc option_map] in RN, R0. rewrite Rmult_0_r in R0.
  rewrite RN by exact Hl. rewrite R0 by exact Hl.
  destruct (side_sum rs 4 =? DECAY)%Z, (side_sum rs 4 =? SCATTERING)%Z, (side_sum rs 4 =? CREATION)%Z; cbv beta iota;
  try (destruct (root_or None _ _)); cbn [lsc option_map osc fst snd]; try reflexivity; now rewrite Rmult_0_r.
Qed.
Lemma p1_step_scale l rs rs' max_3 st p0 : 0 < l -> rescaled l rs rs' ->
  p1_step rs' (l * max_3) (osc l (fst st), osc l (snd st)) (l * p0) =
  ((osc l (fst (fst (p1_step rs max_3 st p0))), osc l (snd (fst (p1_step rs max_3 st p0)))), lsc l (snd (p1_step rs max_3 st p0))).
Proof.
  intros Hl H. assert (HM : forall j, masses_of rs' j = l * masses_of rs j) by (intros; now apply rescaled_mass).
  destruct st as [min_1 max_1]. unfold p1_step. cbv zeta. cbn [fst snd]. rewrite (rescaled_sum l rs rs' 4 H).
  rewrite !HM, !energy_scale' by exact Hl. rewrite <- !Rmult_minus_distr_l, <- !Rmult_plus_distr_l, <- !Rmult_minus_distr_l.
  set (m := masses_of rs). pose proof (root_or_scale l None) as RN. pose proof (root_or_scale l (Some 0)) as R0. cbn [osc option_map] in RN, R0. rewrite Rmult_0_r in R0.
  rewrite RN by exact Hl. rewrite R0 by exact Hl.
  replace ((l * (energy p0 (m 0%nat) - m 2%nat - m 3%nat)) ^ 2 - (l * m 1%nat) ^ 2) with (l ^ 2 * ((energy p0 (m 0%nat) - m 2%nat - m 3%nat) ^ 2 - m 1%nat ^ 2)) by ring.
  rewrite csqrt_scale by exact Hl.
  set (c := csqrt _). set (r1 := root_or (Some 0) _ _). set (r2 := root_or None _ _).
  assert (E1 : match osc l r1 with Some x => x | None => 0 end = l * match r1 with Some x => x | None => 0 end) by (destruct r1; cbn; ring).
  rewrite E1. set (x1 := match r1 with Some x => x | None => 0 end). 
  assert (EM : forall mx, match osc l mx with Some x => if Rlt_dec (3 * (l * x1)) x then Some x else Some (3 * (l * x1)) | None => Some (3 * (l * x1)) end
    = osc l (match mx with Some x => if Rlt_dec (3 * x1) x then Some x else Some (3 * x1) | None => Some (3 * x1) end)).
  { intros [x|]; cbn [osc option_map].
    - replace (3 * (l * x1)) with (l * (3 * x1)) by ring. rewrite if_lt_scale by exact Hl. destruct (Rlt_dec (3 * x1) x); reflexivity.
    - f_equal; ring. }
  destruct (side_sum rs 4 =? DECAY)%Z, (side_sum rs 4 =? SCATTERING)%Z, (side_sum rs 4 =? CREATION)%Z; cbv beta iota; rewrite ?EM, ?(if_eq0_scale l) by exact Hl;
  destruct (Req_EM_T (m 3%nat) 0); try (destruct r2); cbn [lsc option_map osc fst snd]; rewrite ?Rmult_0_r; reflexivity.
Qed.

(* the integrals *)
Lemma is_RInt_scale' l k v v' lo hi J : 0 < l -> (forall x, Rmin lo hi < x < Rmax lo hi -> v' (l * x) = k * v x) -> is_RInt v lo hi J ->
  is_RInt v' (l * lo) (l * hi) (l * k * J).
Proof.
  intros Hl HV HI.
  assert (A : is_RInt (fun y => scal (/ l) (k * v (/ l * y + 0))) (l * lo) (l * hi) (k * J)).
  { apply (is_RInt_comp_lin (fun x => k * v x) (/ l) 0 (l * lo) (l * hi) (k * J)).
    replace (/ l * (l * lo) + 0) with lo by (field; lra). replace (/ l * (l * hi) + 0) with hi by (field; lra).
    exact (is_RInt_scal v lo hi k J HI). }
  apply (is_RInt_scal _ _ _ l) in A. unfold scal in A; cbn in A; unfold mult in A; cbn in A.
  replace (l * k * J) with (l * (k * J)) by ring. eapply is_RInt_ext; [|exact A].
  intros x Hx. cbn. rewrite Rmin_scale, Rmax_scale in Hx by exact Hl.
  assert (Rmin lo hi < / l * x < Rmax lo hi).
  { split; apply (Rmult_lt_reg_l l); try exact Hl; replace (l * (/ l * x)) with x by (field; lra); tauto. }
  rewrite Rplus_0_r, <- (HV (/ l * x)) by assumption. replace (l * (/ l * x)) with x by (field; lra). field. lra.
Qed.
Lemma inner_scale l rs rs' M Ms k n min_2 max_2 max_3 p0 p1 J : 0 < l -> rescaled l rs rs' -> (K M = 0 /\ n = 3%nat \/ K M <> 0 /\ n = 0%nat) ->
  inner_is rs M Ms k min_2 max_2 max_3 p0 p1 J ->
  inner_is rs' M Ms k (osc l min_2) (osc l max_2) (l * max_3) (l * p0) (l * p1) (l * l ^ n * J).
Proof.
  intros Hl H HK. unfold inner_is. rewrite (p2_limits_scale l rs rs') by assumption.
  destruct (p2_limits rs min_2 max_2 max_3 p0 p1) as [[[lo|] [hi|]]|]; cbn [lsc option_map osc fst snd]; try tauto.
  - intros (v & HV & HI). exists (fun q => l ^ n * v (q / l)). split.
    + intros p2 H2. rewrite Rmin_scale, Rmax_scale in H2 by exact Hl.
      assert (H2' : Rmin lo hi < p2 / l < Rmax lo hi).
      { split; apply (Rmult_lt_reg_l l); try exact Hl; replace (l * (p2 / l)) with p2 by (field; lra); tauto. }
      replace p2 with (l * (p2 / l)) at 1 by (field; lra). rewrite (integrand4_scale l rs rs' M Ms k p0 p1 (p2 / l) n) by assumption.
      rewrite (HV _ H2'). reflexivity.
    + apply (is_RInt_scale' l (l ^ n) v); try assumption. intros x _. replace (l * x / l) with x by (field; lra). reflexivity.
  - intros ->. ring.
Qed.
Lemma point4_scale l rs rs' M Ms k n st min_2 max_2 max_3 p0 I : 0 < l -> rescaled l rs rs' -> (K M = 0 /\ n = 3%nat \/ K M <> 0 /\ n = 0%nat) ->
  point4_is rs M Ms k st min_2 max_2 max_3 p0 I ->
  point4_is rs' M Ms k (osc l (fst st), osc l (snd st)) (osc l min_2) (osc l max_2) (l * max_3) (l * p0) (l * (l * l ^ n) * I).
Proof.
  intros Hl H HK. unfold point4_is. rewrite (p1_step_scale l rs rs') by assumption. cbn [snd].
  destruct (snd (p1_step rs max_3 st p0)) as [[[lo|] [hi|]]|]; cbn [lsc option_map osc fst snd]; try tauto.
  - intros (w & HW & HI). exists (fun q => l * l ^ n * w (q / l)). split.
    + intros p1 H1. rewrite Rmin_scale, Rmax_scale in H1 by exact Hl.
      assert (H1' : Rmin lo hi < p1 / l < Rmax lo hi).
      { split; apply (Rmult_lt_reg_l l); try exact Hl; replace (l * (p1 / l)) with p1 by (field; lra); tauto. }
      replace p1 with (l * (p1 / l)) at 1 by (field; lra). apply (inner_scale l rs rs' M Ms k n); auto.
    + apply (is_RInt_scale' l (l * l ^ n) w); try assumption. intros x _. replace (l * x / l) with x by (field; lra). reflexivity.
  - intros ->. ring.
Qed.

(* occupations are read from the table in the same way in every unit *)
Local Notation genergy := GridsModel.energy.
Lemma genergy_scale l p m : 0 < l -> genergy (l * p) (l * m) = l * genergy p m.
Proof. intros. unfold genergy. replace (l * p * (l * p) + l * m * (l * m)) with (l ^ 2 * (p * p + m * m)) by ring. now apply sqrt_scale. Qed.
Lemma rnth_scale l g i : rnth (map (fun x => l * x) g) i = l * rnth g i.
Proof. unfold rnth. replace 0 with (l * 0) at 1 by ring. apply (map_nth (fun x => l * x)). Qed.
Lemma cpp_search_scale l g x : 0 < l -> forall n h t, cpp_search n (map (fun x => l * x) g) (l * x) h t = cpp_search n g x h t.
Proof.
  intros Hl n. induction n as [|n IH]; intros h t; cbn [cpp_search]; [reflexivity|].
  rewrite rnth_scale, if_lt_scale by exact Hl. rewrite !IH. reflexivity.
Qed.
Lemma if_eq_scale {A} l x y (a b : A) : 0 < l -> (if Req_EM_T (l * x) (l * y) then a else b) = if Req_EM_T x y then a else b.
Proof.
  intros. destruct (Req_EM_T (l * x) (l * y)) as [E|N], (Req_EM_T x y) as [E'|N']; auto; exfalso.
  - apply N'. apply (Rmult_eq_reg_l l); lra.
  - subst. now apply N.
Qed.
Lemma cpp_find_scale l n g x : 0 < l -> cpp_binary_find n (map (fun x => l * x) g) (l * x) = cpp_binary_find n g x.
Proof.
  intros Hl. destruct g as [|g0 g']; [reflexivity|]. set (g := g0 :: g').
  change (cpp_binary_find n (map (fun x => l * x) g) (l * x)) with
    (let head := O in
     let tail := (length (map (fun x => l * x)%R g) - 1)%nat in
      if Rlt_dec (rnth (map (fun x => l * x) g) tail) (l * x) then Some (Z.of_nat tail, (-1)%Z)
      else if Rlt_dec (l * x) (rnth (map (fun x => l * x) g) head) then Some ((-1)%Z, Z.of_nat head)
      else match cpp_search n (map (fun x => l * x) g) (l * x) head tail with
           | None => None
           | Some (h, t) =>
               if Req_EM_T (rnth (map (fun x => l * x) g) t) (l * x) then Some (Z.of_nat t, Z.of_nat t)
               else if Req_EM_T (rnth (map (fun x => l * x) g) h) (l * x) then Some (Z.of_nat h, Z.of_nat h)
               else Some (Z.of_nat h, Z.of_nat t)
           end).
  cbv zeta. rewrite map_length, !rnth_scale, cpp_search_scale, !if_lt_scale by exact Hl.
  unfold cpp_binary_find, g. fold g. destruct (Rlt_dec _ _); [reflexivity|]. destruct (Rlt_dec _ _); [reflexivity|].
  destruct (cpp_search n g x 0 (length g - 1)) as [[h t]|]; [|reflexivity]. now rewrite !rnth_scale, !if_eq_scale by exact Hl.
Qed.
Lemma interp_cell_scale l e el eh fl fh eta : 0 < l -> interp_cell (l * e) (l * el) (l * eh) fl fh eta = interp_cell e el eh fl fh eta.
Proof.
  intros Hl. unfold interp_cell. destruct (Req_EM_T fh 0); [reflexivity|]. destruct (Req_EM_T fl 0); [reflexivity|]. cbv zeta.
  destruct (Rlt_dec _ _); [|reflexivity]. destruct (Rlt_dec _ _); [|reflexivity]. f_equal. f_equal. f_equal.
  rewrite <- !Rmult_minus_distr_l. set (d := eh - el). unfold Rdiv.
  destruct (Req_EM_T d 0) as [Z|NZ]; [rewrite Z, !Rmult_0_r, Rinv_0; ring|]. field. split; lra.
Qed.
Lemma interpolation_scale l g d p m eta T ineq : 0 < l -> T <> 0 ->
  distribution_interpolation (map (fun x => l * x) g) d (l * p) (l * m) eta (l * T) ineq = distribution_interpolation g d p m eta T ineq.
Proof.
  intros Hl HT. unfold distribution_interpolation. rewrite map_length, cpp_find_scale by exact Hl. rewrite !genergy_scale by exact Hl.
  destruct ineq.
  - replace (l * genergy p m / (l * T)) with (genergy p m / T) by (field; split; lra). reflexivity.
  - destruct (cpp_binary_find (length g) g p) as [[i j]|]; [|reflexivity].
    destruct (i =? -1)%Z; [reflexivity|]. rewrite !rnth_scale, !genergy_scale by exact Hl.
    destruct (j =? -1)%Z.
    { f_equal. f_equal. f_equal. field. split; lra. }
    destruct (i =? j)%Z; [reflexivity|]. now rewrite interp_cell_scale.
Qed.
Lemma compiled_rescaled a a1 a2 ss : 0 < a1 -> 0 < a2 -> (forall n, s_aT (ss n) <> 0) -> rescaled (a1 / a2) (compiled a a1 ss) (compiled a a2 ss).
Proof.
  intros H1 H2 HT n. assert (Hl : 0 < a1 / a2) by (now apply Rdiv_lt_0_compat).
  repeat split; cbn [compiled mass plg occ].
  - unfold compiled_mass. field. lra.
  - intros q. etransitivity; [|apply (interpolation_scale (a1 / a2)); [exact Hl|]].
    2:{ unfold Rdiv; apply Rmult_integral_contrapositive_currified; [apply HT|]; apply Rinv_neq_0_compat; lra. }
    rewrite map_map. f_equal.
    + apply map_ext. intros x. field. lra.
    + unfold compiled_mass. field. lra.
    + field. lra.
Qed.

(* three-particle *)
Lemma momenta3_scale l rs rs' p0 p1 : 0 < l -> rescaled l rs rs' ->
  match momenta3 rs p0 p1, momenta3 rs' (l * p0) (l * p1) with
  | None, None => True
  | Some (p, E), Some (p', E') => (forall n, p' n = l * p n) /\ (forall n, E' n = l * E n)
  | _, _ => False
  end.
Proof.
  intros Hl H. unfold momenta3. cbv zeta. rewrite !(rescaled_mass l rs rs' _ H), !(rescaled_side l rs rs' _ H), !energy_scale' by exact Hl.
  set (E2 := (0 + IZR (sides_of rs 0%nat) * energy p0 (masses_of rs 0%nat) + IZR (sides_of rs 1%nat) * energy p1 (masses_of rs 1%nat)) * - IZR (sides_of rs 2%nat)).
  match goal with |- context [Rlt_dec ?a (l * masses_of rs 2%nat)] => replace a with (l * E2) by (unfold E2; ring) end.
  destruct (Rlt_dec E2 (masses_of rs 2%nat)), (Rlt_dec (l * E2) (l * masses_of rs 2%nat)); try nra; auto.
  split; intros [|[|j]]; try reflexivity.
  replace ((l * E2) ^ 2 - (l * masses_of rs 2%nat) ^ 2) with (l ^ 2 * (E2 ^ 2 - masses_of rs 2%nat ^ 2)) by ring. now apply sqrt_scale.
Qed.
Lemma in_bounds3_scale l p p' : 0 < l -> (forall n, p' n = l * p n) -> in_bounds3 p' = in_bounds3 p.
Proof.
  intros Hl HP. unfold in_bounds3. rewrite !HP, sort3_scale by exact Hl. destruct (sort3 _ _ _) as [[x y] z].
  rewrite <- ?Rmult_plus_distr_l, <- ?Rmult_minus_distr_l, <- ?Rmult_plus_distr_l, <- ?Rmult_minus_distr_l. now rewrite !sgn_scale by exact Hl.
Qed.
Lemma integrand3_scale l rs rs' k p0 p1 : 0 < l -> rescaled l rs rs' ->
  integrand3 rs' k (l * p0) (l * p1) = rmap (fun x => (if Req_EM_T p0 0 then l else / l ^ 2) * x) (integrand3 rs k p0 p1).
Proof.
  intros Hl H. pose proof (momenta3_scale l rs rs' p0 p1 Hl H) as HMm. unfold integrand3.
  destruct (momenta3 rs p0 p1) as [[p E]|], (momenta3 rs' (l * p0) (l * p1)) as [[p' E']|]; try contradiction; [|cbn; f_equal; ring].
  destruct HMm as (HP & HE). assert (HMs : forall j, masses_of rs' j = l * masses_of rs j) by (intros; now apply rescaled_mass).
  cbv zeta. rewrite if_eq0_scale by exact Hl. rewrite (in_bounds3_scale l p p' Hl HP), !HMs, !velocity_scale, energy_scale' by exact Hl.
  set (c := if Req_EM_T p0 0 then l else / l ^ 2). assert (Hc : 0 < c).
  { unfold c. destruct (Req_EM_T p0 0); [exact Hl|]. apply Rinv_0_lt_compat. now apply pow_lt. }
  set (temp := if Req_EM_T p0 0 then p1 else in_bounds3 p * velocity p1 (masses_of rs 1%nat) / (p0 * energy p0 (masses_of rs 0%nat))).
  assert (HT : (if Req_EM_T p0 0 then l * p1 else in_bounds3 p * velocity p1 (masses_of rs 1%nat) / (l * p0 * (l * energy p0 (masses_of rs 0%nat)))) = c * temp).
  { unfold c, temp. destruct (Req_EM_T p0 0) as [|N]; [reflexivity|].
    set (e := energy p0 (masses_of rs 0%nat)). unfold Rdiv. replace (l * p0 * (l * e)) with (l ^ 2 * (p0 * e)) by ring.
    destruct (Req_EM_T e 0) as [Z|NZ]; [rewrite Z, !Rmult_0_r, Rinv_0; ring|]. field. repeat split; lra. }
  rewrite HT, if_eq0_scale by exact Hc. destruct (Req_EM_T temp 0); [cbn; f_equal; ring|].
  rewrite (rescaled_occ l rs rs' p p' H HP), (rescaled_legs l rs rs' 3 H).
  destruct (occupations rs p 0 3) as [f|]; cbn [rbind rmap]; [|reflexivity]. destruct (functional k (legs rs 3) f); cbn [rbind rmap]; [|reflexivity]. f_equal. ring.
Qed.
Lemma p1_bounds_1_scale l m m' : 0 < l -> (forall n, m' n = l * m n) -> p1_bounds_1 m' = osc l (p1_bounds_1 m).
Proof.
  intros Hl HM. unfold p1_bounds_1. rewrite !HM, if_eq0_scale by exact Hl. destruct (Req_EM_T (m 0%nat) 0); [cbn; f_equal; ring|].
  match goal with |- context [csqrt ?a] => match a with context [l] => replace a with ((l ^ 2) ^ 2 * ((m 0%nat ^ 2 - m 1%nat ^ 2 - m 2%nat ^ 2) ^ 2 - 4 * m 1%nat ^ 2 * m 2%nat ^ 2)) by ring end end.
  rewrite csqrt_scale by (now apply pow_lt). destruct (csqrt _); cbn; [|reflexivity]. f_equal. field. split; lra.
Qed.
Lemma p1_bounds_3_scale l m m' p0 a b : 0 < l -> (forall n, m' n = l * m n) -> p1_bounds_3 m' (l * p0) a b = l * p1_bounds_3 m p0 a b.
Proof.
  intros Hl HM. unfold p1_bounds_3. rewrite !HM. cbv zeta.
  set (t := (p0 ^ 2 + m 0%nat ^ 2) * (m 1%nat ^ 4 + (m 2%nat ^ 2 - m 0%nat ^ 2) ^ 2 - 2 * m 1%nat ^ 2 * (m 2%nat ^ 2 + m 0%nat ^ 2))).
  match goal with |- context [Rlt_dec ?x 0] => replace x with ((l ^ 3) ^ 2 * t) by (unfold t; ring) end.
  assert (HT : (if Rlt_dec ((l ^ 3) ^ 2 * t) 0 then 0 else (l ^ 3) ^ 2 * t) = (l ^ 3) ^ 2 * (if Rlt_dec t 0 then 0 else t)).
  { assert (0 < (l ^ 3) ^ 2) by (repeat apply pow_lt; exact Hl). destruct (Rlt_dec ((l ^ 3) ^ 2 * t) 0), (Rlt_dec t 0); try nra. }
  rewrite HT, sqrt_scale by (now apply pow_lt). set (s := sqrt _). replace (2 * (l * m 0%nat) ^ 2) with (l ^ 2 * (2 * m 0%nat ^ 2)) by ring. unfold Rdiv.
  destruct (Req_EM_T (2 * m 0%nat ^ 2) 0) as [Z|NZ]; [rewrite Z, !Rmult_0_r, Rinv_0; ring|]. field. split; [|lra]. intros Z. apply NZ. rewrite Z. ring.
Qed.
Lemma p1_bounds_2_scale l m m' p0 : 0 < l -> (forall n, m' n = l * m n) -> p1_bounds_2 m' (l * p0) = l * p1_bounds_2 m p0.
Proof.
  intros Hl HM. unfold p1_bounds_2. rewrite !HM. replace (4 * (l * p0) * ((l * m 1%nat) ^ 2 - (l * m 2%nat) ^ 2)) with (l ^ 3 * (4 * p0 * (m 1%nat ^ 2 - m 2%nat ^ 2))) by ring.
  set (d := 4 * p0 * (m 1%nat ^ 2 - m 2%nat ^ 2)). unfold Rdiv. destruct (Req_EM_T d 0) as [Z|NZ]; [rewrite Z, !Rmult_0_r, Rinv_0; ring|]. field. split; lra.
Qed.
Definition psc (l : R) (x : R * R) : R * R := (l * fst x, l * snd x).
Lemma p1_step3_scale l rs rs' max_2 st p0 : 0 < l -> rescaled l rs rs' ->
  p1_step3 rs' (l * max_2) (psc l st) (l * p0) = (psc l (fst (p1_step3 rs max_2 st p0)), option_map (psc l) (snd (p1_step3 rs max_2 st p0))).
Proof.
  intros Hl H. assert (HM : forall j, masses_of rs' j = l * masses_of rs j) by (intros; now apply rescaled_mass).
  destruct st as [min_1 max_1]. unfold p1_step3, p1_bounds_4. cbn [psc fst snd]. cbv zeta. rewrite (rescaled_sum l rs rs' 3 H).
  rewrite !(p1_bounds_3_scale l (masses_of rs)), (p1_bounds_2_scale l (masses_of rs)) by assumption.
  rewrite !HM, !energy_scale' by exact Hl. rewrite <- !Rmult_minus_distr_l. rewrite !if_eq0_scale by exact Hl.
  set (m := masses_of rs). pose proof (root_or_scale l None) as RN. cbn [osc option_map] in RN. rewrite RN by exact Hl.
  set (r := root_or None _ _). set (b := p1_bounds_3 m p0 (-1) 1). set (b' := p1_bounds_3 m p0 1 1). set (b2 := p1_bounds_2 m p0).
  assert (HA : forall x, Rmax (l * x) (- (l * x)) = l * Rmax x (- x)) by (intros x; rewrite <- Rmax_scale by exact Hl; f_equal; ring).
  assert (HI : (if Req_EM_T (m 0%nat) 0 then l * b2 else l * b) = l * (if Req_EM_T (m 0%nat) 0 then b2 else b)) by (destruct (Req_EM_T (m 0%nat) 0); reflexivity).
  rewrite HI, !HA. destruct (side_sum rs 3 =? CREATION3)%Z.
  - destruct r as [t|]; cbn [osc option_map fst snd psc]; [|reflexivity].
    rewrite if_eq0_scale, Rmin_scale by exact Hl.
    assert (HI' : (if Req_EM_T (m 0%nat) 0 then l * t else l * Rmin b' t) = l * (if Req_EM_T (m 0%nat) 0 then t else Rmin b' t)) by (destruct (Req_EM_T (m 0%nat) 0); reflexivity).
    rewrite HI', if_le_scale by exact Hl. destruct (Rle_dec _ _); reflexivity.
  - cbn. reflexivity.
Qed.
Lemma point3_scale l rs rs' k max_2 st p0 I : 0 < l -> rescaled l rs rs' ->
  point3_is rs k max_2 st p0 I ->
  point3_is rs' k (l * max_2) (psc l st) (l * p0) ((if Req_EM_T p0 0 then l else / l) * I).
Proof.
  intros Hl H. assert (HM : forall j, masses_of rs' j = l * masses_of rs j) by (intros; now apply rescaled_mass).
  pose proof (fun p1 => integrand3_scale l rs rs' k p0 p1 Hl H) as HS.
  unfold point3_is. rewrite if_eq0_scale by exact Hl. destruct (Req_EM_T p0 0) as [|N].
  - rewrite (p1_bounds_1_scale l (masses_of rs) (masses_of rs')) by assumption. destruct (p1_bounds_1 (masses_of rs)) as [p1|]; cbn [osc option_map]; [|tauto].
    intros E. rewrite HS, E. reflexivity.
  - rewrite (p1_step3_scale l rs rs') by assumption. cbn [snd].
    destruct (snd (p1_step3 rs max_2 st p0)) as [[lo hi]|]; cbn [option_map psc fst snd].
    + intros (v & HV & HI). exists (fun q => / l ^ 2 * v (q / l)). split.
      * intros p1 H1. rewrite Rmin_scale, Rmax_scale in H1 by exact Hl.
        assert (H1' : Rmin lo hi < p1 / l < Rmax lo hi).
        { split; apply (Rmult_lt_reg_l l); try exact Hl; replace (l * (p1 / l)) with p1 by (field; lra); tauto. }
        replace p1 with (l * (p1 / l)) at 1 by (field; lra). rewrite HS, (HV _ H1'). reflexivity.
      * replace (/ l * I) with (l * / l ^ 2 * I) by (field; lra). apply (is_RInt_scale' l (/ l ^ 2) v); try assumption.
        intros x _. replace (l * x / l) with x by (field; lra). reflexivity.
    + intros ->. ring.
Qed.
