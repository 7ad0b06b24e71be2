(* The decay at rest into three massless products, evaluated in closed form. *)
From Coq Require Import Reals Lra Lia Psatz.
From Coquelicot Require Import Coquelicot.
From Verif Require Import Base FunctionalModel GridsModel DsModel DsProofs BoundsModel BoundsProofs Integrate3Model Integrate4Model.
Open Scope R_scope.
Local Notation length := List.length.
Local Notation energy := BoundsModel.energy.

Lemma sgn_pos x : 0 < x -> sgn x = 1.
Proof. intros. unfold sgn. destruct (Rlt_dec 0 x), (Rlt_dec x 0); lra. Qed.
Lemma sgn_neg x : x < 0 -> sgn x = -1.
Proof. intros. unfold sgn. destruct (Rlt_dec 0 x), (Rlt_dec x 0); lra. Qed.

(* three momenta of a triangle *)
Definition tri (a b c : R) : Prop := a < b + c /\ b < a + c /\ c < a + b.
Lemma Db1_tri a b c : 0 < a -> 0 < b -> 0 < c -> tri a b c -> Db1 a b c = 1.
Proof.
  intros Ha Hb Hc (T1 & T2 & T3). unfold Db1, sort3.
  destruct (Rlt_dec a b), (Rlt_dec b c), (Rlt_dec a c); cbv beta iota;
  repeat match goal with |- context [Rlt_dec ?x ?y] => destruct (Rlt_dec x y); cbv beta iota end;
  rewrite !sgn_pos by lra; rewrite ?sgn_neg by lra; rewrite ?sgn_pos by lra; lra.
Qed.
Lemma Db2_tri a b c : 0 < a -> 0 < b -> 0 < c -> tri a b c -> Db2 a b c = (b ^ 2 + c ^ 2 - a ^ 2) / 2.
Proof.
  intros Ha Hb Hc (T1 & T2 & T3). unfold Db2. destruct (Rlt_dec b c); cbv beta iota; unfold Db2_body;
  rewrite !Rabs_pos_eq by lra; rewrite !(sgn_pos (a + _ - _)), !(sgn_pos (a - _ + _)), !(sgn_neg (a - _ - _)) by lra; field.
Qed.

(* the reaction: a particle of mass M into three massless ones *)
Definition sides4_decay (rs : nat -> participant) : Prop :=
  sides_of rs 0%nat = (-1)%Z /\ sides_of rs 1%nat = 1%Z /\ sides_of rs 2%nat = 1%Z /\ sides_of rs 3%nat = 1%Z.
Definition massless_decay (rs : nat -> participant) (M : R) : Prop :=
  sides4_decay rs /\ mass (rs 0%nat) = M /\ mass (rs 1%nat) = 0 /\ mass (rs 2%nat) = 0 /\ mass (rs 3%nat) = 0 /\
  forall n p, 0 <= p -> exists x, occ (rs n) p = Ok x.
(* the order of a matrix element names every leg once *)
Definition order_ok (o : nat * nat * nat * nat) : Prop :=
  let '(i, j, k, l) := o in NoDup [i; j; k; l] /\ (i < 4 /\ j < 4 /\ k < 4 /\ l < 4)%nat.
(* the leg paired with the decaying one *)
Definition partner (o : nat * nat * nat * nat) : nat :=
  let '(i, j, k, l) := o in if (i * j =? 0)%nat then (i + j)%nat else (k + l)%nat.

Lemma order_cases o : order_ok o -> In o [(0,1,2,3);(0,1,3,2);(0,2,1,3);(0,2,3,1);(0,3,1,2);(0,3,2,1);
  (1,0,2,3);(1,0,3,2);(1,2,0,3);(1,2,3,0);(1,3,0,2);(1,3,2,0);
  (2,0,1,3);(2,0,3,1);(2,1,0,3);(2,1,3,0);(2,3,0,1);(2,3,1,0);
  (3,0,1,2);(3,0,2,1);(3,1,0,2);(3,1,2,0);(3,2,0,1);(3,2,1,0)]%nat.
Proof.
  destruct o as [[[i j] k] l]. intros (ND & Hi & Hj & Hk & Hl).
  inversion ND as [|? ? N1 ND1]; subst. inversion ND1 as [|? ? N2 ND2]; subst. inversion ND2 as [|? ? N3 ND3]; subst. clear ND ND1 ND2 ND3.
  assert (D : i <> j /\ i <> k /\ i <> l /\ j <> k /\ j <> l /\ k <> l) by (cbn in *; intuition congruence).
  clear N1 N2 N3.
  destruct i as [|[|[|[|i]]]]; [..|exfalso; lia]; (destruct j as [|[|[|[|j]]]]; [..|exfalso; lia]); try (exfalso; lia);
  (destruct k as [|[|[|[|k]]]]; [..|exfalso; lia]); try (exfalso; lia); (destruct l as [|[|[|[|l]]]]; [..|exfalso; lia]); try (exfalso; lia);
  cbn; tauto.
Qed.

Lemma Db_rest (p E m : nat -> R) sides K1 K2 o M : order_ok o ->
  sides 0%nat = (-1)%Z -> sides 1%nat = 1%Z -> sides 2%nat = 1%Z -> sides 3%nat = 1%Z ->
  m 1%nat = 0 -> m 2%nat = 0 -> m 3%nat = 0 -> E 1%nat = p 1%nat -> E 2%nat = p 2%nat -> E 3%nat = p 3%nat ->
  0 < p 1%nat -> 0 < p 2%nat -> 0 < p 3%nat -> tri (p 1%nat) (p 2%nat) (p 3%nat) -> p 1%nat + p 2%nat + p 3%nat = M ->
  Db p E m K1 K2 o sides = K1 * (p (partner o) * M * (M - 2 * p (partner o)) / 2).
Proof.
  intros Ho S0 S1 S2 S3 M1 M2 M3 E1 E2 E3 P1 P2 P3 T HM.
  pose proof T as (T1 & T2 & T3).
  assert (TT : tri (p 1%nat) (p 3%nat) (p 2%nat) /\ tri (p 2%nat) (p 1%nat) (p 3%nat) /\ tri (p 2%nat) (p 3%nat) (p 1%nat) /\ tri (p 3%nat) (p 1%nat) (p 2%nat) /\ tri (p 3%nat) (p 2%nat) (p 1%nat)) by (unfold tri; lra).
  destruct TT as (U1 & U2 & U3 & U4 & U5).
  apply order_cases in Ho. cbn [In] in Ho.
  repeat match type of Ho with _ \/ _ => destruct Ho as [<-|Ho] | False => contradiction end;
  unfold Db, partner; cbn [Nat.mul Nat.add Nat.eqb]; rewrite ?S0, ?S1, ?S2, ?S3, ?M1, ?M2, ?M3, ?E1, ?E2, ?E3;
  rewrite Db1_tri by assumption; rewrite ?Db2_tri by assumption;
  destruct (Req_EM_T K1 0) as [Z1|]; destruct (Req_EM_T K2 0); cbn [Z.mul Pos.mul Z.opp]; subst M; try rewrite Z1; field.
Qed.

(* on the edge p1 = p2 + p3 the step functions take half their values *)
Lemma sgn_zero x : x = 0 -> sgn x = 0.
Proof. intros ->. unfold sgn. destruct (Rlt_dec 0 0); lra. Qed.
Lemma Db1_edge a b c : 0 < b -> 0 < c -> a = b + c -> Db1 a b c = 1 / 2.
Proof.
  intros Hb Hc ->. unfold Db1, sort3.
  destruct (Rlt_dec (b + c) b); [lra|]. destruct (Rlt_dec b c); cbv beta iota; destruct (Rlt_dec (b + c) _); cbv beta iota; try lra;
  rewrite (sgn_zero (_ - _ - _)) by ring; rewrite !sgn_pos by lra; lra.
Qed.
Lemma Db2_edge a b c : 0 < b -> 0 < c -> a = b + c ->
  Db2 a b c = - b * c / 2 /\ Db2 a c b = - b * c / 2 /\ Db2 b a c = a * c / 2 /\ Db2 b c a = a * c / 2 /\ Db2 c a b = a * b / 2 /\ Db2 c b a = a * b / 2.
Proof.
  intros Hb Hc ->. unfold Db2. repeat split;
  match goal with |- context [Rlt_dec ?x ?y] => destruct (Rlt_dec x y); cbv beta iota end; try lra; unfold Db2_body;
  repeat match goal with
  | |- context [Rabs ?e] => first [replace (Rabs e) with e by (symmetry; apply Rabs_pos_eq; lra) | replace (Rabs e) with 0 by (replace e with 0 by ring; symmetry; apply Rabs_R0)]
  end;
  repeat match goal with
  | |- context [sgn ?e] => first [rewrite (sgn_zero e) by lra | rewrite (sgn_pos e) by lra | rewrite (sgn_neg e) by lra]
  end; field.
Qed.
Lemma Db_edge (p E m : nat -> R) sides K1 K2 o M : order_ok o ->
  sides 0%nat = (-1)%Z -> sides 1%nat = 1%Z -> sides 2%nat = 1%Z -> sides 3%nat = 1%Z ->
  m 1%nat = 0 -> m 2%nat = 0 -> m 3%nat = 0 -> E 1%nat = p 1%nat -> E 2%nat = p 2%nat -> E 3%nat = p 3%nat ->
  0 < p 2%nat -> 0 < p 3%nat -> p 1%nat = p 2%nat + p 3%nat -> p 1%nat + p 2%nat + p 3%nat = M ->
  Db p E m K1 K2 o sides = K1 * (p (partner o) * M * (M - 2 * p (partner o)) / 2) / 2.
Proof.
  intros Ho S0 S1 S2 S3 M1 M2 M3 E1 E2 E3 P2 P3 P1 HM.
  destruct (Db2_edge (p 1%nat) (p 2%nat) (p 3%nat) P2 P3 P1) as (B1 & B2 & B3 & B4 & B5 & B6).
  apply order_cases in Ho. cbn [In] in Ho.
  repeat match type of Ho with _ \/ _ => destruct Ho as [<-|Ho] | False => contradiction end;
  unfold Db, partner; cbn [Nat.mul Nat.add Nat.eqb]; rewrite ?S0, ?S1, ?S2, ?S3, ?M1, ?M2, ?M3, ?E1, ?E2, ?E3;
  rewrite Db1_edge by assumption; rewrite ?B1, ?B2, ?B3, ?B4, ?B5, ?B6;
  destruct (Req_EM_T K1 0) as [Z1|]; destruct (Req_EM_T K2 0); cbn [Z.mul Pos.mul Z.opp]; subst M; rewrite P1; try rewrite Z1; field.
Qed.

Lemma in_bounds_rest p E m : p 0%nat = 0 -> 0 <= p 1%nat -> m 3%nat <= E 3%nat -> 
  in_bounds4 p E m = true -> p 1%nat <= p 2%nat + p 3%nat /\ p 2%nat <= p 1%nat + p 3%nat /\ p 3%nat <= p 1%nat + p 2%nat.
Proof.
  intros P0 P1 HE. unfold in_bounds4. rewrite P0.
  destruct (Rlt_dec 0 (p 1%nat)), (Rlt_dec (p 2%nat) (p 3%nat)); cbv beta iota;
  repeat match goal with |- context [Rle_dec ?x ?y] => destruct (Rle_dec x y); cbv beta iota end; intros; try discriminate; lra.
Qed.
Lemma in_bounds_rest' p E m : p 0%nat = 0 -> 0 <= p 1%nat -> m 3%nat <= E 3%nat -> 
  p 1%nat <= p 2%nat + p 3%nat -> p 2%nat <= p 1%nat + p 3%nat -> p 3%nat <= p 1%nat + p 2%nat -> in_bounds4 p E m = true.
Proof.
  intros P0 P1 HE A B C. unfold in_bounds4. rewrite P0.
  destruct (Rlt_dec 0 (p 1%nat)), (Rlt_dec (p 2%nat) (p 3%nat)); cbv beta iota;
  repeat match goal with |- context [Rle_dec ?x ?y] => destruct (Rle_dec x y); cbv beta iota end; trivial; lra.
Qed.

(* the kernel summed over the matrix elements *)
Definition pairing (M p1 p2 : R) (j : nat) : R :=
  let q := match j with 1%nat => p1 | 2%nat => p2 | _ => M - p1 - p2 end in q * M * (M - 2 * q) / 2.
Definition rest_kernel (M : R) (Ms : list matrix_element) (p1 p2 : R) : R :=
  fold_right (fun A s => K1 A * pairing M p1 p2 (partner (order A)) + s) 0 Ms.

Lemma rest_momenta rs M p1 p2 : massless_decay rs M -> 0 < M -> 0 <= p1 -> 0 <= p2 -> p1 + p2 <= M ->
  exists p E, momenta4 rs 0 p1 p2 = Some (p, E) /\ p 0%nat = 0 /\ p 1%nat = p1 /\ p 2%nat = p2 /\ p 3%nat = M - p1 - p2 /\
    E 1%nat = p1 /\ E 2%nat = p2 /\ E 3%nat = M - p1 - p2.
Proof.
  intros ((S0 & S1 & S2 & S3) & M0 & M1 & M2 & M3 & _) HM H1 H2 H3. unfold momenta4. cbv zeta. unfold masses_of. rewrite M0, M1, M2, M3, S0, S1, S2, S3.
  rewrite energy_rest, !energy_zero by lra.
  replace ((0 + IZR (-1) * M + IZR 1 * p1 + IZR 1 * p2) * - IZR 1) with (M - p1 - p2) by ring.
  destruct (Rlt_dec (M - p1 - p2) 0) as [L|_]; [lra|].
  eexists; eexists; split; [reflexivity|]. cbn. repeat split; try reflexivity.
  replace ((M - p1 - p2) * ((M - p1 - p2) * 1) - 0 * (0 * 1)) with ((M - p1 - p2) ^ 2) by ring. apply sqrt_pow2. lra.
Qed.

Lemma occupations4_ok rs M p : massless_decay rs M -> (forall n, (n < 4)%nat -> 0 <= p n) -> exists f, occupations rs p 0 4 = Ok f.
Proof.
  intros (_ & _ & _ & _ & _ & HO) HP. cbn [occupations].
  destruct (HO 0%nat (p 0%nat) (HP 0%nat ltac:(lia))) as (x0 & ->). destruct (HO 1%nat (p 1%nat) (HP 1%nat ltac:(lia))) as (x1 & ->).
  destruct (HO 2%nat (p 2%nat) (HP 2%nat ltac:(lia))) as (x2 & ->). destruct (HO 3%nat (p 3%nat) (HP 3%nat ltac:(lia))) as (x3 & ->).
  cbn [rbind]. eauto.
Qed.

Lemma fold_kernel (g : matrix_element -> R) l x : fold_left (fun ds M => ds + g M) l x = x + fold_right (fun A s => g A + s) 0 l.
Proof. revert x. induction l as [|a l IH]; intros x; cbn; [ring|]. rewrite IH. ring. Qed.

Lemma integrand_rest_in rs M A Ms p1 p2 : massless_decay rs M -> 0 < M -> Forall (fun B => order_ok (order B)) (A :: Ms) ->
  0 < p1 < M / 2 -> M / 2 - p1 < p2 < M / 2 ->
  integrand4 rs A Ms Ff_vacuum 0 p1 p2 = Ok (- if Req_EM_T (K A) 0 then rest_kernel M (A :: Ms) p1 p2 else K A).
Proof.
  intros HD HM HO H1 H2. destruct (rest_momenta rs M p1 p2 HD HM) as (p & E & HMm & P0 & P1 & P2 & P3 & E1 & E2 & E3); try lra.
  unfold integrand4. rewrite HMm. cbv zeta.
  pose proof HD as ((S0 & S1 & S2 & S3) & M0 & M1 & M2 & M3 & _).
  rewrite in_bounds_rest' by (unfold masses_of; rewrite ?P0, ?P1, ?P2, ?P3, ?E3, ?M3; lra).
  assert (HV : forall q n, mass (rs n) = 0 -> velocity q (masses_of rs n) = 1).
  { intros q n HZ. unfold velocity, masses_of. rewrite HZ. destruct (Req_EM_T 0 0); lra. }
  rewrite !HV by assumption.
  destruct (Req_EM_T (1 * 1) 0) as [|_]; [lra|].
  assert (HK : kernel p E (masses_of rs) (sides_of rs) A Ms = if Req_EM_T (K A) 0 then rest_kernel M (A :: Ms) p1 p2 else K A).
  { unfold kernel. destruct (Req_EM_T (K A) 0); [|ring]. rewrite P0. destruct (Req_EM_T 0 0) as [_|]; [|lra].
    rewrite fold_kernel, Rplus_0_l. unfold rest_kernel. induction HO as [|B l HB HO IH]; [reflexivity|]. cbn [fold_right]. rewrite IH. f_equal.
    rewrite (Db_rest p E (masses_of rs) (sides_of rs) (K1 B) (K2 B) (order B) M); try assumption; unfold masses_of, tri; rewrite ?P1, ?P2, ?P3, ?E1, ?E2, ?E3; try lra.
    unfold pairing. apply order_cases in HB. cbn [In] in HB.
    repeat match type of HB with _ \/ _ => destruct HB as [<-|HB] | False => contradiction end; cbn [partner Nat.mul Nat.add Nat.eqb]; rewrite ?P1, ?P2, ?P3; reflexivity. }
  rewrite HK. set (k := if Req_EM_T (K A) 0 then _ else _).
  destruct (Req_EM_T (1 * 1 * k) 0) as [Z|_]; [f_equal; lra|].
  destruct (occupations4_ok rs M p HD) as (f & ->).
  { intros i Hi. destruct i as [|[|[|[|i]]]]; [lra..|lia]. }
  cbn [rbind functional F_f_vacuum_decay]. f_equal. ring.
Qed.
Lemma integrand_rest_edge rs M A Ms p2 : massless_decay rs M -> 0 < M -> Forall (fun B => order_ok (order B)) (A :: Ms) ->
  0 < p2 < M / 2 ->
  integrand4 rs A Ms Ff_vacuum 0 (M / 2) p2 = Ok (- if Req_EM_T (K A) 0 then rest_kernel M (A :: Ms) (M / 2) p2 / 2 else K A).
Proof.
  intros HD HM HO H2. destruct (rest_momenta rs M (M / 2) p2 HD HM) as (p & E & HMm & P0 & P1 & P2 & P3 & E1 & E2 & E3); try lra.
  unfold integrand4. rewrite HMm. cbv zeta.
  pose proof HD as ((S0 & S1 & S2 & S3) & M0 & M1 & M2 & M3 & _).
  rewrite in_bounds_rest' by (unfold masses_of; rewrite ?P0, ?P1, ?P2, ?P3, ?E3, ?M3; lra).
  assert (HV : forall q n, mass (rs n) = 0 -> velocity q (masses_of rs n) = 1).
  { intros q n HZ. unfold velocity, masses_of. rewrite HZ. destruct (Req_EM_T 0 0); lra. }
  rewrite !HV by assumption.
  destruct (Req_EM_T (1 * 1) 0) as [|_]; [lra|].
  assert (HK : kernel p E (masses_of rs) (sides_of rs) A Ms = if Req_EM_T (K A) 0 then rest_kernel M (A :: Ms) (M / 2) p2 / 2 else K A).
  { unfold kernel. destruct (Req_EM_T (K A) 0); [|ring]. rewrite P0. destruct (Req_EM_T 0 0) as [_|]; [|lra].
    rewrite fold_kernel, Rplus_0_l. unfold rest_kernel. induction HO as [|B l HB HO IH]; [cbn; field|]. cbn [fold_right]. rewrite IH.
    rewrite (Db_edge p E (masses_of rs) (sides_of rs) (K1 B) (K2 B) (order B) M); try assumption; unfold masses_of; rewrite ?P1, ?P2, ?P3, ?E1, ?E2, ?E3; try lra.
    match goal with |- ?x / 2 + ?y / 2 = (?z + ?y) / 2 => replace x with z; [field|] end. f_equal.
    unfold pairing. apply order_cases in HB. cbn [In] in HB.
    repeat match type of HB with _ \/ _ => destruct HB as [<-|HB] | False => contradiction end; cbn [partner Nat.mul Nat.add Nat.eqb]; rewrite ?P1, ?P2, ?P3; reflexivity. }
  rewrite HK. set (k := if Req_EM_T (K A) 0 then _ else _).
  destruct (Req_EM_T (1 * 1 * k) 0) as [Z|_]; [f_equal; lra|].
  destruct (occupations4_ok rs M p HD) as (f & ->).
  { intros i Hi. destruct i as [|[|[|[|i]]]]; [lra..|lia]. }
  cbn [rbind functional F_f_vacuum_decay]. f_equal. ring.
Qed.
Lemma integrand_rest_out rs M A Ms k p1 p2 : massless_decay rs M -> 0 < M ->
  0 <= p1 -> 0 <= p2 -> p1 + p2 <= M -> M / 2 < p1 \/ p2 < M / 2 - p1 \/ M / 2 < p2 ->
  integrand4 rs A Ms k 0 p1 p2 = Ok 0.
Proof.
  intros HD HM H1 H2 H3 H4. destruct (rest_momenta rs M p1 p2 HD HM) as (p & E & HMm & P0 & P1 & P2 & P3 & E1 & E2 & E3); try lra.
  unfold integrand4. rewrite HMm. cbv zeta. pose proof HD as ((S0 & S1 & S2 & S3) & M0 & M1 & M2 & M3 & _).
  destruct (in_bounds4 p E (masses_of rs)) eqn:B; [|reflexivity]. exfalso.
  apply in_bounds_rest in B; unfold masses_of in *; rewrite ?P0, ?P1, ?P2, ?P3, ?E3, ?M3 in *; lra.
Qed.

(* the integrals *)
Lemma is_RInt_anti (F f : R -> R) a b : (forall x, is_derive F x (f x)) -> (forall x, continuous f x) -> is_RInt f a b (F b - F a).
Proof. intros HF Hf. apply (is_RInt_derive F f a b); intros x _; [apply HF|apply Hf]. Qed.
Lemma is_RInt_zero_on (f : R -> R) a b : (forall x, Rmin a b < x < Rmax a b -> f x = 0) -> is_RInt f a b 0.
Proof.
  intros H. apply (is_RInt_ext (fun _ => 0)); [intros x Hx; symmetry; now apply H|].
  pose proof (is_RInt_const a b (0 : R)) as C. unfold scal in C; cbn in C; unfold mult in C; cbn in C. now rewrite Rmult_0_r in C.
Qed.

Lemma chasles_R (f : R -> R) a b c (x y : R) : is_RInt f a b x -> is_RInt f b c y -> is_RInt f a c (x + y).
Proof. intros A B. exact (is_RInt_Chasles f a b c x y A B). Qed.
Lemma rest_limits_1 rs M max_3 mn mx : massless_decay rs M -> 0 < M -> snd (p1_step rs max_3 (mn, mx) 0) = Some (mn, Some M).
Proof.
  intros ((S0 & S1 & S2 & S3) & M0 & M1 & M2 & M3 & _) HM. unfold p1_step. cbv zeta.
  assert (HS : side_sum rs 4 = DECAY) by (unfold side_sum; cbn [seq fold_left]; now rewrite S0, S1, S2, S3). rewrite HS.
  cbn [Z.eqb DECAY SCATTERING CREATION Pos.eqb]. cbn [snd]. unfold masses_of. rewrite M0, M1, M2, M3, energy_rest by lra.
  replace ((M - 0 - 0) ^ 2 - 0 ^ 2) with (M ^ 2) by ring. unfold csqrt. destruct (Rlt_dec (M ^ 2) 0); [nra|]. now rewrite sqrt_pow2 by lra.
Qed.
Lemma rest_limits_2 rs M mn mx max_3 p1 : massless_decay rs M -> 0 < M -> 0 <= p1 <= M -> p2_limits rs mn mx max_3 0 p1 = Some (Some 0, Some (M - p1)).
Proof.
  intros ((S0 & S1 & S2 & S3) & M0 & M1 & M2 & M3 & _) HM HP. unfold p2_limits. cbv zeta.
  assert (HS : side_sum rs 4 = DECAY) by (unfold side_sum; cbn [seq fold_left]; now rewrite S0, S1, S2, S3). rewrite HS.
  cbn [Z.eqb DECAY SCATTERING CREATION Pos.eqb]. unfold p2_max_dec, masses_of. rewrite M0, M1, M2, M3, energy_rest, energy_zero by lra.
  replace ((M - p1 - 0) ^ 2 - 0 ^ 2) with ((M - p1) ^ 2) by ring. unfold csqrt. destruct (Rlt_dec ((M - p1) ^ 2) 0); [nra|]. now rewrite sqrt_pow2 by lra.
Qed.

Definition rest_amp (M : R) (A : matrix_element) (Ms : list matrix_element) (p1 p2 : R) : R :=
  if Req_EM_T (K A) 0 then rest_kernel M (A :: Ms) p1 p2 else K A.
Lemma rest_point rs M A Ms mn mx max_3 st1 (g : R -> R) I : massless_decay rs M -> 0 < M ->
  Forall (fun B => order_ok (order B)) (A :: Ms) ->
  (forall p1, is_RInt (rest_amp M A Ms p1) (M / 2 - p1) (M / 2) (g p1)) ->
  is_RInt g 0 (M / 2) I ->
  point4_is rs A Ms Ff_vacuum (Some 0, st1) mn mx max_3 0 (- I).
Proof.
  intros HD HM HO HG HI. unfold point4_is. rewrite (rest_limits_1 rs M) by assumption.
  exists (fun p1 => if Rlt_dec p1 (M / 2) then - g p1 else if Req_EM_T p1 (M / 2) then (if Req_EM_T (K A) 0 then / 2 else 1) * - g p1 else 0).
  rewrite Rmin_left, Rmax_right by lra. split.
  - intros p1 H1. unfold inner_is. rewrite (rest_limits_2 rs M) by (assumption || lra).
    rewrite Rmin_left, Rmax_right by lra.
    exists (fun p2 => match integrand4 rs A Ms Ff_vacuum 0 p1 p2 with Ok x => x | Raise _ => 0 end).
    split.
    + intros p2 H2. destruct (rest_momenta rs M p1 p2 HD HM) as (p & E & HMm & P0 & P1 & P2 & P3 & _); try lra.
      unfold integrand4. rewrite HMm. cbv zeta. destruct (in_bounds4 _ _ _); [|reflexivity]. destruct (Req_EM_T _ 0); [reflexivity|].
      destruct (Req_EM_T _ 0); [reflexivity|]. destruct (occupations4_ok rs M p HD) as (f & ->).
      { intros i Hi. destruct i as [|[|[|[|i]]]]; [lra..|lia]. }
      reflexivity.
    + destruct (Rlt_dec p1 (M / 2)) as [L|L].
      * replace (- g p1) with (0 + (- g p1 + 0)) by ring.
        apply (chasles_R _ 0 (M / 2 - p1) (M - p1)); [|apply (chasles_R _ (M / 2 - p1) (M / 2) (M - p1))].
        -- apply is_RInt_zero_on. intros x Hx. rewrite Rmin_left, Rmax_right in Hx by lra.
           rewrite (integrand_rest_out rs M) by (assumption || lra). reflexivity.
        -- eapply is_RInt_ext; [|apply (is_RInt_opp (V := R_NormedModule)), (HG p1)].
           intros x Hx. rewrite Rmin_left, Rmax_right in Hx by lra. rewrite (integrand_rest_in rs M) by (assumption || lra). reflexivity.
        -- apply is_RInt_zero_on. intros x Hx. rewrite Rmin_left, Rmax_right in Hx by lra.
           rewrite (integrand_rest_out rs M) by (assumption || lra). reflexivity.
      * destruct (Req_EM_T p1 (M / 2)) as [->|N].
        -- replace (M - M / 2) with (M / 2) by field.
           pose proof (is_RInt_scal _ _ _ (if Req_EM_T (K A) 0 then / 2 else 1) _ (is_RInt_opp _ _ _ _ (HG (M / 2)))) as HH.
           replace (M / 2 - M / 2) with 0 in HH by ring. eapply is_RInt_ext; [|exact HH].
           intros x Hx. rewrite Rmin_left, Rmax_right in Hx by lra. rewrite (integrand_rest_edge rs M) by (assumption || lra).
           unfold rest_amp, opp, scal; cbn; unfold mult; cbn. destruct (Req_EM_T (K A) 0); field.
        -- apply is_RInt_zero_on. intros x Hx. rewrite Rmin_left, Rmax_right in Hx by lra.
           rewrite (integrand_rest_out rs M) by (assumption || lra). reflexivity.
  - replace (- I) with (- I + 0) by ring. apply (chasles_R _ 0 (M / 2) M).
    + eapply is_RInt_ext; [|apply (is_RInt_opp (V := R_NormedModule)), HI]. intros x Hx. rewrite Rmin_left, Rmax_right in Hx by lra. cbn.
      destruct (Rlt_dec x (M / 2)); [reflexivity|lra].
    + apply is_RInt_zero_on. intros x Hx. rewrite Rmin_left, Rmax_right in Hx by lra. destruct (Rlt_dec x (M / 2)); [lra|]. destruct (Req_EM_T x (M / 2)); lra.
Qed.

(* closed forms *)
Definition inner_pairing (M u : R) (j : nat) : R :=
  match j with 1%nat => u ^ 2 * M * (M - 2 * u) / 2 | _ => M / 2 * (M * u ^ 2 / 2 - 2 * u ^ 3 / 3) end.
Lemma pairing_int M u j : (1 <= j)%nat -> is_RInt (fun p2 => pairing M u p2 j) (M / 2 - u) (M / 2) (inner_pairing M u j).
Proof.
  intros Hj. destruct j as [|[|[|j]]]; [lia|..]; cbn [pairing inner_pairing].
  - pose proof (is_RInt_const (M / 2 - u) (M / 2) (u * M * (M - 2 * u) / 2)) as C. unfold scal in C; cbn in C; unfold mult in C; cbn in C.
    match type of C with is_RInt _ _ _ ?x => replace (u ^ 2 * M * (M - 2 * u) / 2) with x by field end. exact C.
  - pose proof (is_RInt_anti (fun q => M / 2 * (M * q ^ 2 / 2 - 2 * q ^ 3 / 3)) (fun q => q * M * (M - 2 * q) / 2) (M / 2 - u) (M / 2)) as C.
    match type of C with _ -> _ -> is_RInt _ _ _ ?x => replace (M / 2 * (M * u ^ 2 / 2 - 2 * u ^ 3 / 3)) with x by field end.
    apply C; intros x.
    + auto_derive; [trivial|]. field.
    + apply (ex_derive_continuous (fun q : R => q * M * (M - 2 * q) / 2)). auto_derive. trivial.
  - pose proof (is_RInt_anti (fun q => - (M / 2 * (M * (M - u - q) ^ 2 / 2 - 2 * (M - u - q) ^ 3 / 3))) (fun q => (M - u - q) * M * (M - 2 * (M - u - q)) / 2) (M / 2 - u) (M / 2)) as C.
    match type of C with _ -> _ -> is_RInt _ _ _ ?x => replace (M / 2 * (M * u ^ 2 / 2 - 2 * u ^ 3 / 3)) with x by field end.
    apply C; intros x.
    + auto_derive; [trivial|]. field.
    + apply (ex_derive_continuous (fun q : R => (M - u - q) * M * (M - 2 * (M - u - q)) / 2)). auto_derive. trivial.
Qed.
Lemma inner_pairing_int M j : (1 <= j)%nat -> is_RInt (fun u => inner_pairing M u j) 0 (M / 2) (M ^ 5 / 192).
Proof.
  intros Hj. destruct j as [|[|j]]; [lia|..]; cbn [inner_pairing].
  - pose proof (is_RInt_anti (fun u => M / 2 * (M * u ^ 3 / 3 - u ^ 4 / 2)) (fun u => u ^ 2 * M * (M - 2 * u) / 2) 0 (M / 2)) as C.
    match type of C with _ -> _ -> is_RInt _ _ _ ?x => replace (M ^ 5 / 192) with x by field end.
    apply C; intros x.
    + auto_derive; [trivial|]. field.
    + apply (ex_derive_continuous (fun u : R => u ^ 2 * M * (M - 2 * u) / 2)). auto_derive. trivial.
  - pose proof (is_RInt_anti (fun u => M / 2 * (M * u ^ 3 / 6 - u ^ 4 / 6)) (fun u => M / 2 * (M * u ^ 2 / 2 - 2 * u ^ 3 / 3)) 0 (M / 2)) as C.
    match type of C with _ -> _ -> is_RInt _ _ _ ?x => replace (M ^ 5 / 192) with x by field end.
    apply C; intros x.
    + auto_derive; [trivial|]. field.
    + apply (ex_derive_continuous (fun u : R => M / 2 * (M * u ^ 2 / 2 - 2 * u ^ 3 / 3))). auto_derive. trivial.
Qed.
Lemma partner_pos o : order_ok o -> (1 <= partner o)%nat.
Proof.
  intros H. apply order_cases in H. cbn [In] in H.
  repeat match type of H with _ \/ _ => destruct H as [<-|H] | False => contradiction end; cbn; lia.
Qed.
Definition sum_K1 (Ms : list matrix_element) : R := fold_right (fun A s => K1 A + s) 0 Ms.
Lemma rest_kernel_int M Ms u : Forall (fun B => order_ok (order B)) Ms ->
  is_RInt (rest_kernel M Ms u) (M / 2 - u) (M / 2) (fold_right (fun A s => K1 A * inner_pairing M u (partner (order A)) + s) 0 Ms).
Proof.
  induction 1 as [|A Ms HA HMs IH]; cbn [fold_right rest_kernel].
  - apply is_RInt_zero_on. reflexivity.
  - apply (is_RInt_plus (V := R_NormedModule)); [|exact IH]. apply (is_RInt_scal (V := R_NormedModule)). apply pairing_int. now apply partner_pos.
Qed.
Lemma rest_kernel_int2 M Ms : Forall (fun B => order_ok (order B)) Ms ->
  is_RInt (fun u => fold_right (fun A s => K1 A * inner_pairing M u (partner (order A)) + s) 0 Ms) 0 (M / 2) (sum_K1 Ms * (M ^ 5 / 192)).
Proof.
  induction 1 as [|A Ms HA HMs IH]; cbn [fold_right sum_K1].
  - rewrite Rmult_0_l. apply is_RInt_zero_on. reflexivity.
  - rewrite Rmult_plus_distr_r. apply (is_RInt_plus (V := R_NormedModule)); [|exact IH]. apply (is_RInt_scal (V := R_NormedModule)). apply inner_pairing_int. now apply partner_pos.
Qed.
Lemma rest_value rs M A Ms mn mx max_3 st1 : massless_decay rs M -> 0 < M -> Forall (fun B => order_ok (order B)) (A :: Ms) ->
  point4_is rs A Ms Ff_vacuum (Some 0, st1) mn mx max_3 0 (- if Req_EM_T (K A) 0 then sum_K1 (A :: Ms) * (M ^ 5 / 192) else K A * M ^ 2 / 8).
Proof.
  intros HD HM HO. destruct (Req_EM_T (K A) 0) as [Z|N].
  - apply (rest_point rs M A Ms mn mx max_3 st1 (fun u => fold_right (fun A s => K1 A * inner_pairing M u (partner (order A)) + s) 0 (A :: Ms))); try assumption.
    + intros p1. eapply is_RInt_ext; [|apply rest_kernel_int; exact HO]. intros x _. unfold rest_amp. destruct (Req_EM_T (K A) 0); [reflexivity|contradiction].
    + now apply rest_kernel_int2.
  - apply (rest_point rs M A Ms mn mx max_3 st1 (fun u => u * K A)); try assumption.
    + intros p1. pose proof (is_RInt_const (M / 2 - p1) (M / 2) (K A)) as C. unfold scal in C; cbn in C; unfold mult in C; cbn in C.
      replace (M / 2 - (M / 2 - p1)) with p1 in C by ring. eapply is_RInt_ext; [|exact C]. intros x _. unfold rest_amp. destruct (Req_EM_T (K A) 0); [contradiction|reflexivity].
    + pose proof (is_RInt_anti (fun u => u ^ 2 / 2 * K A) (fun u => u * K A) 0 (M / 2)) as C.
      match type of C with _ -> _ -> is_RInt _ _ _ ?x => replace (K A * M ^ 2 / 8) with x by field end.
      apply C; intros x.
      * auto_derive; [trivial|]. field.
      * apply (ex_derive_continuous (fun u : R => u * K A)). auto_derive. trivial.
Qed.

(* uniqueness *)
Lemma inner_unique rs M Ms k mn mx max_3 p0 p1 J J' : inner_is rs M Ms k mn mx max_3 p0 p1 J -> inner_is rs M Ms k mn mx max_3 p0 p1 J' -> J = J'.
Proof.
  unfold inner_is. destruct (p2_limits rs mn mx max_3 p0 p1) as [[[lo|] [hi|]]|]; try tauto; [|congruence].
  intros (v & HV & HI) (v' & HV' & HI'). apply (is_RInt_ext _ v') in HI.
  - rewrite <- (is_RInt_unique (V := R_CompleteNormedModule) _ _ _ _ HI). now apply (is_RInt_unique (V := R_CompleteNormedModule)).
  - intros x Hx. specialize (HV x Hx). specialize (HV' x Hx). congruence.
Qed.
Lemma point4_unique rs M Ms k st mn mx max_3 p0 I I' : point4_is rs M Ms k st mn mx max_3 p0 I -> point4_is rs M Ms k st mn mx max_3 p0 I' -> I = I'.
Proof.
  unfold point4_is. destruct (snd (p1_step rs max_3 st p0)) as [[[lo|] [hi|]]|]; try tauto; [|congruence].
  intros (v & HV & HI) (v' & HV' & HI'). apply (is_RInt_ext _ v') in HI.
  - rewrite <- (is_RInt_unique (V := R_CompleteNormedModule) _ _ _ _ HI). now apply (is_RInt_unique (V := R_CompleteNormedModule)).
  - intros x Hx. eapply inner_unique; [now apply HV|now apply HV'].
Qed.
