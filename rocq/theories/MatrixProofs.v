(* Positivity of the matrix elements. *)
From Coq Require Import Reals Lra Permutation Psatz.
From Verif Require Import Base CrossModel CrossProofs CrossProofs2 CrossProofs3 CrossProofs4 ParamsModel LibModel LibProofs MatrixModel.
Open Scope R_scope.

(* ---------- Minkowski space ---------- *)
Definition comp (c : nat) (v : vec4) : R := let '(t, x, y, z) := v in match c with O => t | 1%nat => x | 2%nat => y | _ => z end.
Definition causal (p : vec4) : Prop := 0 < comp 0 p /\ 0 <= dot p p.
Lemma cs3 a b c x y z : (a * x + b * y + c * z) ^ 2 <= (a ^ 2 + b ^ 2 + c ^ 2) * (x ^ 2 + y ^ 2 + z ^ 2).
Proof.
  assert (0 <= (a * y - b * x) ^ 2) by apply pow2_ge_0. assert (0 <= (a * z - c * x) ^ 2) by apply pow2_ge_0. assert (0 <= (b * z - c * y) ^ 2) by apply pow2_ge_0. nra.
Qed.
Lemma pow2_gt_0 a : a <> 0 -> 0 < a ^ 2.
Proof. intros H. assert (0 < a * a) by nra. nra. Qed.
Lemma sq_le a b : 0 <= b -> a ^ 2 <= b ^ 2 -> a <= b.
Proof. intros Hb H. destruct (Rle_or_lt a b) as [|L]; [assumption|]. exfalso. nra. Qed.
Lemma mul_le a b c d : 0 <= a -> a <= b -> 0 <= c -> c <= d -> a * c <= b * d.
Proof. intros. apply Rmult_le_compat; auto. Qed.
Lemma dot_causal p q : causal p -> causal q -> 0 <= dot p q.
Proof.
  destruct p as [[[p0 p1] p2] p3], q as [[[q0 q1] q2] q3]. intros (Hp & Dp) (Hq & Dq). cbn in *.
  assert (C := cs3 p1 p2 p3 q1 q2 q3). assert (E : p1 * q1 + p2 * q2 + p3 * q3 <= p0 * q0); [|lra].
  apply sq_le; [nra|]. eapply Rle_trans; [exact C|]. replace ((p0 * q0) ^ 2) with (p0 ^ 2 * q0 ^ 2) by ring.
  apply mul_le; nra.
Qed.
(* the Gram determinant of three vectors, one of them causal *)
Lemma gram p q k : 0 <> comp 0 q -> 0 <= dot q q ->
  0 <= dot p p * (dot q q * dot k k - dot q k ^ 2) - dot p q * (dot p q * dot k k - dot q k * dot p k) + dot p k * (dot p q * dot q k - dot q q * dot p k).
Proof.
  destruct p as [[[a0 a1] a2] a3], q as [[[b0 b1] b2] b3], k as [[[c0 c1] c2] c3]. cbn [comp dot]. intros H0 H1.
  set (n0 := a1 * (b2 * c3 - b3 * c2) - a2 * (b1 * c3 - b3 * c1) + a3 * (b1 * c2 - b2 * c1)).
  set (n1 := a0 * (b2 * c3 - b3 * c2) - a2 * (b0 * c3 - b3 * c0) + a3 * (b0 * c2 - b2 * c0)).
  set (n2 := a0 * (b1 * c3 - b3 * c1) - a1 * (b0 * c3 - b3 * c0) + a3 * (b0 * c1 - b1 * c0)).
  set (n3 := a0 * (b1 * c2 - b2 * c1) - a1 * (b0 * c2 - b2 * c0) + a2 * (b0 * c1 - b1 * c0)).
  match goal with |- 0 <= ?e => replace e with (n1 ^ 2 + n2 ^ 2 + n3 ^ 2 - n0 ^ 2) by (unfold n0, n1, n2, n3; ring) end.
  assert (O : b0 * n0 = b1 * n1 + (- b2) * n2 + b3 * n3) by (unfold n0, n1, n2, n3; ring).
  assert (C := cs3 b1 (- b2) b3 n1 n2 n3). rewrite <- O in C.
  assert (B : (b0 * n0) ^ 2 <= b0 ^ 2 * (n1 ^ 2 + n2 ^ 2 + n3 ^ 2)).
  { eapply Rle_trans; [exact C|]. apply Rmult_le_compat_r; [|nra]. pose proof (pow2_ge_0 n1). pose proof (pow2_ge_0 n2). pose proof (pow2_ge_0 n3). lra. }
  assert (P : 0 < b0 ^ 2) by (apply pow2_gt_0; auto). rewrite Rpow_mult_distr in B. apply Rmult_le_reg_l in B; [lra|exact P].
Qed.

(* ---------- the inequality behind the weak amplitudes ---------- *)
Lemma bound_scalar c m2 x y : 0 <= c -> 0 <= m2 -> m2 * (x + y) ^ 2 <= 2 * (x * y) * (c + (x + y)) ->
  0 <= x * y * ((c + x) * (c + y)) -> (m2 * (x + y)) ^ 2 <= 4 * (x * y * ((c + x) * (c + y))).
Proof.
  intros Hc Hm HG HP. set (s := x + y) in *. set (w := x * y) in *.
  destruct (Req_dec s 0) as [E|N]; [rewrite E; replace ((m2 * 0) ^ 2) with 0 by ring; lra|].
  assert (S2 : 0 < s ^ 2) by (apply pow2_gt_0; auto).
  replace ((c + x) * (c + y)) with (c ^ 2 + c * s + w) in * by (unfold s, w; ring).
  assert (W : 0 <= w * (c + s)) by nra.
  (* multiply by s^2 *)
  assert (Q : (m2 * s) ^ 2 * s ^ 2 <= 4 * (w * (c ^ 2 + c * s + w)) * s ^ 2); [|now apply Rmult_le_reg_r in Q].
  assert (Q1 : (m2 * s) ^ 2 * s ^ 2 <= (2 * w * (c + s)) ^ 2).
  { replace ((m2 * s) ^ 2 * s ^ 2) with ((m2 * s ^ 2) ^ 2) by ring. apply pow_incr. split; [nra|lra]. }
  eapply Rle_trans; [exact Q1|].
  assert (D : 4 * (w * (c ^ 2 + c * s + w)) * s ^ 2 - (2 * w * (c + s)) ^ 2 = 4 * c * (w * (c * (s ^ 2 - w) + s * (s ^ 2 - 2 * w)))) by ring.
  assert (P : 0 <= w * (c * (s ^ 2 - w) + s * (s ^ 2 - 2 * w))); [|assert (0 <= 4 * c * (w * (c * (s ^ 2 - w) + s * (s ^ 2 - 2 * w)))) by nra; lra].
  assert (A1 : s ^ 2 - w = x ^ 2 + x * y + y ^ 2) by (unfold s, w; ring). assert (A2 : s ^ 2 - 2 * w = x ^ 2 + y ^ 2) by (unfold s, w; ring). rewrite A1, A2.
  assert (X2 := pow2_ge_0 x). assert (Y2 := pow2_ge_0 y). fold w.
  destruct (Rle_or_lt 0 w) as [W0|W0].
  - destruct (Req_dec w 0) as [->|W1]; [lra|]. assert (CS : 0 <= c + s) by nra. apply Rmult_le_pos; [exact W0|].
    destruct (Rle_or_lt 0 s) as [S0|S0]; [nra|]. nra.
  - assert (CS : c + s <= 0) by nra. assert (c * (x ^ 2 + w + y ^ 2) + s * (x ^ 2 + y ^ 2) <= 0) by nra. nra.
Qed.

Lemma dot_comp p q : dot p q = comp 0 p * comp 0 q - comp 1 p * comp 1 q - comp 2 p * comp 2 q - comp 3 p * comp 3 q.
Proof. destruct p as [[[p0 p1] p2] p3], q as [[[q0 q1] q2] q3]. reflexivity. Qed.
Definition balance (q : nat -> vec4) : Prop := forall c, comp c (q 0%nat) + comp c (q 1%nat) = comp c (q 2%nat) + comp c (q 3%nat).
Lemma dot_add q v : balance q -> dot (q 0%nat) v + dot (q 1%nat) v = dot (q 2%nat) v + dot (q 3%nat) v.
Proof. intros B. rewrite !dot_comp. pose proof (B 0%nat). pose proof (B 1%nat). pose proof (B 2%nat). pose proof (B 3%nat). nra. Qed.

Lemma bound_momenta q M2 m2 : balance q -> dot (q 0%nat) (q 0%nat) = M2 -> 0 <= M2 -> dot (q 1%nat) (q 1%nat) = 0 ->
  dot (q 2%nat) (q 2%nat) = m2 -> dot (q 3%nat) (q 3%nat) = m2 -> 0 <= m2 -> 0 <> comp 0 (q 2%nat) ->
  0 <= (dot (q 1%nat) (q 2%nat) * dot (q 0%nat) (q 3%nat)) * (dot (q 1%nat) (q 3%nat) * dot (q 0%nat) (q 2%nat)) ->
  (m2 * dot (q 0%nat) (q 1%nat)) ^ 2 <= 4 * ((dot (q 1%nat) (q 2%nat) * dot (q 0%nat) (q 3%nat)) * (dot (q 1%nat) (q 3%nat) * dot (q 0%nat) (q 2%nat))).
Proof.
  intros B H0 HM H1 H2 H3 Hm HE HP.
  assert (A0 := dot_add q (q 0%nat) B). assert (A1 := dot_add q (q 1%nat) B). assert (A2 := dot_add q (q 2%nat) B). assert (A3 := dot_add q (q 3%nat) B).
  rewrite (dot_sym (q 1%nat) (q 0%nat)), (dot_sym (q 2%nat) (q 0%nat)), (dot_sym (q 3%nat) (q 0%nat)) in A0.
  rewrite (dot_sym (q 2%nat) (q 1%nat)), (dot_sym (q 3%nat) (q 1%nat)) in A1. rewrite (dot_sym (q 3%nat) (q 2%nat)) in A2.
  assert (GR := gram (q 1%nat) (q 2%nat) (q 3%nat) HE). rewrite H1, H2, H3 in GR. specialize (GR Hm).
  set (x := dot (q 1%nat) (q 2%nat)) in *. set (y := dot (q 1%nat) (q 3%nat)) in *. set (z := dot (q 2%nat) (q 3%nat)) in *.
  rewrite H0, H1 in *. set (k := dot (q 0%nat) (q 1%nat)) in *. set (u := dot (q 0%nat) (q 2%nat)) in *. set (v := dot (q 0%nat) (q 3%nat)) in *.
  assert (Ek : k = x + y) by lra. assert (Eu : u = M2 / 2 + y) by lra. assert (Ev : v = M2 / 2 + x) by lra. assert (Ez : z = M2 / 2 + x + y - m2) by lra.
  clearbody x y z k u v. clear A0 A1 A2 A3. subst k u v z.
  replace (x * (M2 / 2 + x) * (y * (M2 / 2 + y))) with (x * y * ((M2 / 2 + x) * (M2 / 2 + y))) in * by ring.
  apply bound_scalar; [lra|exact Hm| |exact HP]. nra.
Qed.

Lemma quadratic A B C X Y Z : 0 <= A -> 0 <= B -> 0 <= X -> 0 <= Y -> C ^ 2 <= A * B -> Z ^ 2 <= 4 * (X * Y) -> 0 <= A * X + B * Y + C * Z.
Proof.
  intros HA HB HX HY HC HZ. assert (H : - (C * Z) <= A * X + B * Y); [|lra]. assert (P1 : 0 <= A * X) by now apply Rmult_le_pos. assert (P2 : 0 <= B * Y) by now apply Rmult_le_pos.
  apply sq_le; [lra|]. replace ((- (C * Z)) ^ 2) with (C ^ 2 * Z ^ 2) by ring.
  eapply Rle_trans; [apply mul_le; [apply pow2_ge_0|exact HC|apply pow2_ge_0|exact HZ]|].
  assert (0 <= (A * X - B * Y) ^ 2) by apply pow2_ge_0. nra.
Qed.

(* ---------- physical momenta of a reaction ---------- *)
(* on-shell, of positive energy, incoming and outgoing total momenta equal *)
Definition inflow (r : list item) (p : nat -> vec4) (c : nat) : R :=
  fold_right Rplus 0 (map (fun j => match nth_error r j with Some it => IZR (iside it) * comp c (p j) | None => 0 end) (seq 0 (length r))).
Definition physical (r : list item) (p : nat -> vec4) (m : nat -> R) : Prop :=
  (forall j it, nth_error r j = Some it -> 0 < comp 0 (p j) /\ dot (p j) (p j) = m j ^ 2 /\ m j = IZR (smass (ispecie it)) * eV) /\
  forall c, inflow r p c = 0.
Lemma physical_ext r r' p m : map ispecie r = map ispecie r' -> map iside r = map iside r' -> physical r p m -> physical r' p m.
Proof.
  intros E1 E2 (H1 & H2).
  assert (L : length r = length r') by (rewrite <- (map_length ispecie r), E1, map_length; reflexivity).
  assert (G : forall j, option_map ispecie (nth_error r j) = option_map ispecie (nth_error r' j) /\ option_map iside (nth_error r j) = option_map iside (nth_error r' j)).
  { intros j. rewrite <- !nth_error_map. now rewrite E1, E2. }
  split.
  - intros j it Hj. destruct (G j) as (G1 & G2). rewrite Hj in G1, G2. destruct (nth_error r j) as [it'|] eqn:Ej; [|discriminate]. cbn in G1, G2. injection G1 as G1. destruct (H1 j it' Ej) as (A & B & C). now rewrite <- G1.
  - intros c. rewrite <- (H2 c). unfold inflow. rewrite <- L. f_equal. apply map_ext. intros j. destruct (G j) as (G1 & G2). destruct (nth_error r j), (nth_error r' j); try discriminate; [|reflexivity]. cbn in G2. injection G2 as ->. reflexivity.
Qed.
Lemma perm_sum (l l' : list R) : Permutation l l' -> fold_right Rplus 0 l = fold_right Rplus 0 l'.
Proof. intros H. induction H; cbn; auto; try (rewrite IHPermutation; reflexivity); [ring|congruence]. Qed.
Lemma comp_neg c p : comp c (neg p) = - comp c p.
Proof. destruct p as [[[a b] d] e]. destruct c as [|[|[|c]]]; reflexivity. Qed.

Lemma nodup_map_inj {A B} (f : A -> B) l : (forall x y, In x l -> In y l -> f x = f y -> x = y) -> NoDup l -> NoDup (map f l).
Proof.
  intros HJ H. induction H as [|x l N ND IH]; cbn; [constructor|]. constructor.
  - intros I. apply in_map_iff in I. destruct I as (y & E & Iy). apply N. rewrite (HJ x y); auto; [now left|now right].
  - apply IH. intros a b Ha Hb. apply HJ; now right.
Qed.
Definition base_flow (base : list item) (q : nat -> vec4) (c : nat) : R := fold_right Rplus 0 (map (fun b => IZR (iside b) * comp c (q (index b))) base).
Lemma base_crossed ps fs b : In b (base_items ps fs) -> crossed b = false.
Proof.
  unfold base_items. assert (G : forall sd l s f, In b (items_from sd s l f) -> crossed b = false).
  { intros sd l. induction l as [|x l IH]; intros s f H; [destruct H|]. destruct f as [|y f]; [destruct H|]. cbn in H. destruct H as [<-|H]; [reflexivity|eauto]. }
  intros H. apply in_app_or in H. destruct H as [H|H]; eauto.
Qed.
(* the momenta of the uncrossed reaction *)
Lemma base_physical ps fs r p m : flags_ok ps fs -> (length (fst ps) + length (snd ps) = 4)%nat -> generated_shape (base_items ps fs) r -> physical r p m ->
  exists (sg : nat -> bool) (k : nat -> vec4),
  (-1) ^ crossings r = sgn_of (sg 0%nat) * sgn_of (sg 1%nat) * sgn_of (sg 2%nat) * sgn_of (sg 3%nat) /\
  (forall b, In b (base_items ps fs) -> base_momentum r p (index b) = (if sg (index b) then neg (k (index b)) else k (index b)) /\
     0 < comp 0 (k (index b)) /\ dot (k (index b)) (k (index b)) = base_mass r m (index b) ^ 2 /\ base_mass r m (index b) = IZR (smass (ispecie b)) * eV) /\
  forall c, base_flow (base_items ps fs) (base_momentum r p) c = 0.
Proof.
  intros HF H4 HG (HP & HI). assert (PI := shape_indices ps fs r HF HG). rewrite H4 in PI.
  destruct HG as (sd & h & t & rhs & Hsd & PR & _).
  assert (HN : NoDup (map index r)) by (eapply Permutation_NoDup; [symmetry; exact PI|apply seq_NoDup]).
  set (at_ := fun i => match pos_of i 0 r None with Some j => j | None => 0%nat end).
  exists (fun i => is_crossed r (at_ i)), (fun i => p (at_ i)).
  assert (G : forall i, (i < 4)%nat -> exists it, nth_error r (at_ i) = Some it /\ index it = i /\ pos_of i 0 r None = Some (at_ i)).
  { intros i Hi. destruct (pos_exists r i HN) as (k & it & E1 & E2 & E3); [eapply Permutation_in; [symmetry; exact PI|apply in_seq; lia]|].
    unfold at_. rewrite E3. exists it. auto. }
  assert (HLr : length r = 4%nat) by (rewrite <- (map_length index), (Permutation_length PI); reflexivity).
  assert (PP : Permutation (map at_ (seq 0 4)) (seq 0 4)).
  { apply NoDup_Permutation_bis.
    - apply nodup_map_inj; [|apply seq_NoDup]. intros x y Hx Hy E. apply in_seq in Hx, Hy. destruct (G x) as (ix & Ex & Ix & _); [lia|]. destruct (G y) as (iy & Ey & Iy & _); [lia|]. rewrite E in Ex. congruence.
    - now rewrite map_length, !seq_length.
    - intros x Hx. apply in_map_iff in Hx. destruct Hx as (i & <- & Hi). apply in_seq in Hi. destruct (G i) as (it & E & _); [lia|]. apply in_seq. assert (at_ i < length r)%nat by (apply nth_error_Some; congruence). lia. }
  assert (BI : map index (base_items ps fs) = seq 0 4) by (rewrite base_index by auto; now rewrite H4).
  assert (GB : forall b, In b (base_items ps fs) -> exists it s, nth_error r (at_ (index b)) = Some it /\ pos_of (index b) 0 r None = Some (at_ (index b)) /\ it = to_side s b /\ (s = -1 \/ s = 1)%Z).
  { intros b Hb. assert (Hi : In (index b) (seq 0 4)) by (rewrite <- BI; now apply in_map). apply in_seq in Hi. destruct (G (index b)) as (it & E & I & P); [lia|].
    assert (Iit : In it (placed (base_items ps fs) sd)) by (eapply Permutation_in; [exact PR|eapply nth_error_In; eauto]). apply in_map_iff in Iit. destruct Iit as (b' & <- & Hb').
    rewrite to_side_index in I. assert (b' = b).
    { assert (ND : NoDup (map index (base_items ps fs))) by (rewrite BI; apply seq_NoDup). clear -ND Hb Hb' I. induction (base_items ps fs) as [|x l IH]; [destruct Hb|]. cbn in ND. inversion ND as [|? ? N1 N2]; subst.
      destruct Hb as [->|Hb], Hb' as [->|Hb']; auto; exfalso; apply N1; [rewrite <- I|rewrite I]; now apply in_map. }
    subst b'. exists (to_side (sd (index b)) b), (sd (index b)). split; [exact E|]. split; [exact P|]. split; [reflexivity|apply Hsd]. }
  split; [|split].
  - rewrite crossings_prod. destruct (length4 r HLr) as (r0 & r1 & r2 & r3 & Er).
    assert (Q : fold_right Rmult 1 (map (fun x => sgn_of (is_crossed r x)) (map at_ (seq 0 4))) = fold_right Rmult 1 (map (fun x => sgn_of (is_crossed r x)) (seq 0 4))) by (apply perm_prod; now apply Permutation_map).
    cbn [map seq fold_right] in Q. assert (Q' : fold_right Rmult 1 (map (fun x => sgn_of (is_crossed r x)) (seq 0 4)) = fold_right Rmult 1 (map (fun it => sgn_of (crossed it)) r)) by (rewrite Er; reflexivity).
    cbn [map seq fold_right] in Q'. lra.
  - intros b Hb. destruct (GB b Hb) as (it & s & E & P & -> & Hs). unfold base_momentum, base_mass. rewrite P. split; [reflexivity|].
    destruct (HP _ _ E) as (A & B & C). split; [exact A|]. split; [exact B|]. now rewrite to_side_specie in C.
  - intros c. rewrite <- (HI c). unfold base_flow, inflow. rewrite HLr.
    transitivity (fold_right Rplus 0 (map (fun j => match nth_error r j with Some it => IZR (iside it) * comp c (p j) | None => 0 end) (map at_ (seq 0 4)))).
    + rewrite <- BI, !map_map. f_equal. apply map_ext_in. intros b Hb. destruct (GB b Hb) as (it & s & E & P & -> & Hs). rewrite E. unfold base_momentum. rewrite P.
      unfold is_crossed. rewrite E. assert (Cb := base_crossed ps fs b Hb). assert (Sb := base_two_sided ps fs b Hb). unfold to_side.
      destruct (Z.eqb_spec (iside b) s) as [<-|N]; [rewrite Cb; reflexivity|]. cbn [cross_particle crossed iside]. rewrite Cb. cbn [negb]. rewrite comp_neg, opp_IZR. ring.
    + apply perm_sum. now apply Permutation_map.
Qed.
Lemma sides_aligned base r r' : generated_shape base r -> generated_shape base r' -> length r = length r' -> similar (of_reaction r) (of_reaction r') -> map iside r = map iside r'.
Proof.
  intros (sd & h & t & rhs & _ & _ & -> & _ & S1 & S2 & _) (sd' & h' & t' & rhs' & _ & _ & -> & _ & S1' & S2' & _) HL (_ & PL & _). cbn [of_reaction ireaction] in PL.
  change (h :: t ++ rhs) with ((h :: t) ++ rhs) in *. change (h' :: t' ++ rhs') with ((h' :: t') ++ rhs') in *.
  destruct (lefts_rights _ _ S1 S2) as (EL & _). destruct (lefts_rights _ _ S1' S2') as (EL' & _). rewrite EL, EL' in PL. apply Permutation_length in PL. rewrite !map_length in PL.
  rewrite !app_length in HL. rewrite !map_app.
  assert (G : forall (l : list item) s, (forall x, In x l -> iside x = s) -> map iside l = repeat s (length l)).
  { intros l s. induction l as [|x l IH]; intros H; [reflexivity|]. cbn. rewrite H by now left. f_equal. apply IH. intros y Hy. apply H. now right. }
  rewrite (G _ _ S1), (G _ _ S2), (G _ _ S1'), (G _ _ S2'), PL. do 2 f_equal. lia.
Qed.
(* every amplitude of an interaction is non-negative if the crossed ones are *)
Lemma amplitudes_nonneg ps fs Ms : flags_ok ps fs -> distinct_species (base_items ps fs) -> (length (fst ps) + length (snd ps) = 4)%nat -> Forall proper Ms ->
  (forall r p m, generated_shape (base_items ps fs) r -> physical r p m -> 0 <= crossed_amplitude r Ms p m) ->
  exists out, cross_generating ps fs Ms = Ok out /\ forall o, In o out -> forall p m, physical (ireaction o) p m -> 0 <= total (CrossModel.Ms o) p m.
Proof.
  intros HF HD H4 HM HA. destruct (cross_generating_spec ps fs Ms HF HD H4 HM) as (rs & out & E & EC & _ & HO & _ & HT). exists out. split; [exact EC|].
  intros o Ho p m Hp. rewrite (HT o Ho). destruct (HO o Ho) as (r0 & H0 & Eh).
  assert (G0 := reactions_sound ps fs rs r0 HF HD E H0).
  assert (Er : ireaction o = r0) by (unfold header, of_reaction in Eh; cbn in Eh; now injection Eh). rewrite Er in Hp.
  assert (G : forall l, incl l rs -> 0 <= fold_right Rplus 0 (map (fun r => crossed_amplitude r Ms p m) (filter (fun r => same_integral (of_reaction r) o) l))).
  { induction l as [|r l IH]; intros Hl; [cbn; lra|]. cbn [filter]. assert (0 <= fold_right Rplus 0 (map (fun r => crossed_amplitude r Ms p m) (filter (fun r => same_integral (of_reaction r) o) l))) by (apply IH; intros z Hz; apply Hl; now right).
    destruct (same_integral (of_reaction r) o) eqn:S1; [|exact H]. cbn [map fold_right]. assert (Hr : In r rs) by (apply Hl; now left).
    apply same_integral_spec in S1. assert (S2 : similar (of_reaction r) (of_reaction r0)) by (eapply similar_header; [reflexivity|exact Eh|exact S1]).
    assert (Gr := reactions_sound ps fs rs r HF HD E Hr). assert (0 <= crossed_amplitude r Ms p m); [|lra]. apply HA; [exact Gr|].
    assert (A1 := aligned _ r r0 HD Gr G0 S2). eapply physical_ext; [| |exact Hp]; [now symmetry|]. symmetry. eapply sides_aligned; eauto. rewrite <- (map_length ispecie r), A1. apply map_length. }
  apply G. intros z Hz. exact Hz.
Qed.

(* K1 terms *)
Definition attractive (M : mel) : Prop := exists o K1, M = M4 o K1 0 0 /\ Permutation o (seq 0 4) /\ 0 <= K1.
Lemma attractive_proper M : attractive M -> proper M.
Proof. intros (o & K1 & -> & P & _). exists o, K1, 0. auto. Qed.
Lemma crossed_cons r M Ms p m : crossed_amplitude r (M :: Ms) p m = (-1) ^ crossings r * Msq M (base_momentum r p) (base_mass r m) + crossed_amplitude r Ms p m.
Proof. unfold crossed_amplitude, total. cbn [map fold_right]. ring. Qed.
Lemma sgn_sq b : sgn_of b * sgn_of b = 1. Proof. destruct b; cbn; ring. Qed.
Lemma attractive_nonneg ps fs r p m Ms : flags_ok ps fs -> (length (fst ps) + length (snd ps) = 4)%nat -> generated_shape (base_items ps fs) r -> physical r p m ->
  Forall attractive Ms -> 0 <= crossed_amplitude r Ms p m.
Proof.
  intros HF H4 HG HP HM. destruct (base_physical ps fs r p m HF H4 HG HP) as (sg & k & EC & HB & _).
  induction HM as [|M Ms HM _ IH]; [unfold crossed_amplitude, total; cbn; lra|]. rewrite crossed_cons. apply Rplus_le_le_0_compat; [|exact IH]. clear IH.
  destruct HM as (o & K1 & -> & PO & HK). destruct (length4 o) as (a & b & c & d & ->); [now rewrite (Permutation_length PO)|]. cbn [Msq].
  assert (BI : map index (base_items ps fs) = seq 0 4) by (rewrite base_index by auto; now rewrite H4).
  assert (G : forall i, In i [a; b; c; d] -> base_momentum r p i = (if sg i then neg (k i) else k i) /\ causal (k i)).
  { intros i Hi. apply (Permutation_in _ PO) in Hi. rewrite <- BI in Hi. apply in_map_iff in Hi. destruct Hi as (x & <- & Hx). destruct (HB x Hx) as (A & B & C & _). split; [exact A|]. split; [exact B|]. rewrite C. apply pow2_ge_0. }
  destruct (G a) as (-> & Ca); [cbn; auto|]. destruct (G b) as (-> & Cb); [cbn; auto|]. destruct (G c) as (-> & Cc); [cbn; auto|]. destruct (G d) as (-> & Cd); [cbn; auto|].
  rewrite !dot_neg, EC.
  assert (Q : sgn_of (sg 0%nat) * sgn_of (sg 1%nat) * sgn_of (sg 2%nat) * sgn_of (sg 3%nat) = sgn_of (sg a) * sgn_of (sg b) * sgn_of (sg c) * sgn_of (sg d)).
  { assert (X := perm_prod _ _ (Permutation_map (fun i => sgn_of (sg i)) PO)). cbn in X. lra. }
  rewrite Q. assert (Sa := sgn_sq (sg a)). assert (Sb := sgn_sq (sg b)). assert (Sc := sgn_sq (sg c)). assert (Sd := sgn_sq (sg d)).
  assert (D1 := dot_causal _ _ Ca Cb). assert (D2 := dot_causal _ _ Cc Cd).
  match goal with |- 0 <= ?e => replace e with ((sgn_of (sg a) * sgn_of (sg a)) * (sgn_of (sg b) * sgn_of (sg b)) * (sgn_of (sg c) * sgn_of (sg c)) * (sgn_of (sg d) * sgn_of (sg d)) * (K1 * dot (k a) (k b) * dot (k c) (k d))) by ring end.
  rewrite Sa, Sb, Sc, Sd. assert (0 <= K1 * dot (k a) (k b) * dot (k c) (k d)) by (repeat apply Rmult_le_pos; auto). lra.
Qed.

(* two K1 terms and their interference *)
Lemma interfering_nonneg s a l fa fb fc fd r p m Ms A B C : smass a = 0%Z ->
  generated_shape (base_items ([s; a], [l; l]) ([fa; fb], [fc; fd])) r -> physical r p m ->
  (forall q mu, total Ms q mu = A * (dot (q 0%nat) (q 2%nat) * dot (q 1%nat) (q 3%nat)) + B * (dot (q 0%nat) (q 3%nat) * dot (q 1%nat) (q 2%nat)) + C * (mu 2%nat * mu 3%nat * dot (q 0%nat) (q 1%nat))) ->
  0 <= A -> 0 <= B -> C ^ 2 <= A * B -> 0 <= crossed_amplitude r Ms p m.
Proof.
  intros Ma HG HP HT HA HB HC. destruct (base_physical ([s; a], [l; l]) ([fa; fb], [fc; fd]) r p m) as (sg & k & EC & HB' & HF); [split; reflexivity|reflexivity|exact HG|exact HP|].
  unfold crossed_amplitude. rewrite EC, HT. set (q := base_momentum r p) in *. set (mu := base_mass r m) in *.
  cbn [base_items items_from app fst snd length] in HB', HF.
  destruct (HB' (mkItem (-1) s fa 0 false)) as (Q0 & E0 & N0 & _); [now left|].
  destruct (HB' (mkItem (-1) a fb 1 false)) as (Q1 & E1 & N1 & M1); [right; now left|].
  destruct (HB' (mkItem 1 l fc 2 false)) as (Q2 & E2 & N2 & M2); [do 2 right; now left|].
  destruct (HB' (mkItem 1 l fd 3 false)) as (Q3 & E3 & N3 & M3); [do 3 right; now left|]. clear HB'.
  cbn [index ispecie] in *.
  assert (BAL : balance q).
  { intros c. specialize (HF c). unfold base_flow in HF. cbn [map fold_right iside index] in HF. lra. }
  rewrite Ma in M1. assert (Z1 : mu 1%nat = 0) by lra. rewrite Z1 in N1. assert (M23 : mu 3%nat = mu 2%nat) by lra. rewrite M23 in *.
  assert (SD : forall i, q i = (if sg i then neg (k i) else k i) -> dot (q i) (q i) = dot (k i) (k i)).
  { intros i ->. rewrite dot_neg. destruct (sg i); cbn; ring. }
  assert (C0 : causal (k 0%nat)) by (split; [exact E0|rewrite N0; apply pow2_ge_0]). assert (C1 : causal (k 1%nat)) by (split; [exact E1|rewrite N1; nra]).
  assert (C2 : causal (k 2%nat)) by (split; [exact E2|rewrite N2; apply pow2_ge_0]). assert (C3 : causal (k 3%nat)) by (split; [exact E3|rewrite N3; apply pow2_ge_0]).
  set (S4 := sgn_of (sg 0%nat) * sgn_of (sg 1%nat) * sgn_of (sg 2%nat) * sgn_of (sg 3%nat)) in *.
  assert (DD : forall i j, q i = (if sg i then neg (k i) else k i) -> q j = (if sg j then neg (k j) else k j) -> dot (q i) (q j) = sgn_of (sg i) * sgn_of (sg j) * dot (k i) (k j)).
  { intros i j -> ->. apply dot_neg. }
  assert (S0 := sgn_sq (sg 0%nat)). assert (S1 := sgn_sq (sg 1%nat)). assert (S2 := sgn_sq (sg 2%nat)). assert (S3 := sgn_sq (sg 3%nat)).
  assert (X : S4 * (dot (q 0%nat) (q 2%nat) * dot (q 1%nat) (q 3%nat)) = dot (k 0%nat) (k 2%nat) * dot (k 1%nat) (k 3%nat)).
  { rewrite (DD 0%nat 2%nat Q0 Q2), (DD 1%nat 3%nat Q1 Q3). unfold S4.
    match goal with |- ?e = _ => replace e with ((sgn_of (sg 0%nat) * sgn_of (sg 0%nat)) * (sgn_of (sg 1%nat) * sgn_of (sg 1%nat)) * (sgn_of (sg 2%nat) * sgn_of (sg 2%nat)) * (sgn_of (sg 3%nat) * sgn_of (sg 3%nat)) * (dot (k 0%nat) (k 2%nat) * dot (k 1%nat) (k 3%nat))) by ring end.
    rewrite S0, S1, S2, S3. ring. }
  assert (Y : S4 * (dot (q 0%nat) (q 3%nat) * dot (q 1%nat) (q 2%nat)) = dot (k 0%nat) (k 3%nat) * dot (k 1%nat) (k 2%nat)).
  { rewrite (DD 0%nat 3%nat Q0 Q3), (DD 1%nat 2%nat Q1 Q2). unfold S4.
    match goal with |- ?e = _ => replace e with ((sgn_of (sg 0%nat) * sgn_of (sg 0%nat)) * (sgn_of (sg 1%nat) * sgn_of (sg 1%nat)) * (sgn_of (sg 2%nat) * sgn_of (sg 2%nat)) * (sgn_of (sg 3%nat) * sgn_of (sg 3%nat)) * (dot (k 0%nat) (k 3%nat) * dot (k 1%nat) (k 2%nat))) by ring end.
    rewrite S0, S1, S2, S3. ring. }
  assert (S44 : S4 * S4 = 1).
  { unfold S4. match goal with |- ?e = _ => replace e with ((sgn_of (sg 0%nat) * sgn_of (sg 0%nat)) * (sgn_of (sg 1%nat) * sgn_of (sg 1%nat)) * (sgn_of (sg 2%nat) * sgn_of (sg 2%nat)) * (sgn_of (sg 3%nat) * sgn_of (sg 3%nat))) by ring end. rewrite S0, S1, S2, S3. ring. }
  assert (PX : 0 <= dot (k 0%nat) (k 2%nat) * dot (k 1%nat) (k 3%nat)) by (apply Rmult_le_pos; now apply dot_causal).
  assert (PY : 0 <= dot (k 0%nat) (k 3%nat) * dot (k 1%nat) (k 2%nat)) by (apply Rmult_le_pos; now apply dot_causal).
  assert (XY : (dot (q 1%nat) (q 2%nat) * dot (q 0%nat) (q 3%nat)) * (dot (q 1%nat) (q 3%nat) * dot (q 0%nat) (q 2%nat)) =
    (dot (k 0%nat) (k 2%nat) * dot (k 1%nat) (k 3%nat)) * (dot (k 0%nat) (k 3%nat) * dot (k 1%nat) (k 2%nat))).
  { rewrite <- X, <- Y. match goal with |- ?e = ?f => replace f with (S4 * S4 * e) by ring end. rewrite S44. ring. }
  assert (BD := bound_momenta q (mu 0%nat ^ 2) (mu 2%nat ^ 2) BAL). rewrite XY in BD.
  rewrite (SD 0%nat Q0), (SD 1%nat Q1), (SD 2%nat Q2), (SD 3%nat Q3), N0, N1, N2, N3 in BD.
  assert (E2' : 0 <> comp 0 (q 2%nat)) by (rewrite Q2; destruct (sg 2%nat); [rewrite comp_neg|]; lra).
  specialize (BD eq_refl (pow2_ge_0 _) ltac:(ring) eq_refl eq_refl (pow2_ge_0 _) E2' (Rmult_le_pos _ _ PX PY)).
  match goal with |- 0 <= ?e => replace e with (A * (S4 * (dot (q 0%nat) (q 2%nat) * dot (q 1%nat) (q 3%nat))) + B * (S4 * (dot (q 0%nat) (q 3%nat) * dot (q 1%nat) (q 2%nat))) + C * (S4 * (mu 2%nat ^ 2 * dot (q 0%nat) (q 1%nat)))) by ring end.
  rewrite X, Y. apply quadratic; auto.
  replace ((S4 * (mu 2%nat ^ 2 * dot (q 0%nat) (q 1%nat))) ^ 2) with (S4 * S4 * (mu 2%nat ^ 2 * dot (q 0%nat) (q 1%nat)) ^ 2) by ring. rewrite S44. lra.
Qed.
