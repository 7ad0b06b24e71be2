(* The decays of sterile neutrinos into mesons *)
From Coq Require Import Reals Lra Psatz.
From Coquelicot Require Import Coquelicot.
From Verif Require Import Base FunctionalModel BoundsModel BoundsProofs BoundsProofs3 Integrate3Model Integrate3Props CrossModel ParamsModel LibModel LibProofs Lib2Proofs Lib3Proofs MatrixModel WidthModel WidthProofs.
Open Scope R_scope.

(* what sterile_hadrons_interactions contains *)
Lemma hadrons_in thetas s ns ls ms out t K p l h : sterile_hadrons_interactions thetas s ns ls ms = Ok out -> In (t, K) out -> tparts t = ([p], [l; h]) ->
  p = s /\ In h ms /\ thetas (flav l) <> 0 /\
  ((In l ns /\ Q3 h = 0%Z /\ (mtyp h = Some Scalar /\ neutral_scalar_K (thetas (flav l)) s h = Ok K \/ mtyp h = Some Vector /\ neutral_vector_K (thetas (flav l)) s h = Ok K)) \/
   (In l ls /\ Q3 h = (-3)%Z /\ (mtyp h = Some Scalar /\ charged_scalar_K (thetas (flav l)) s l h = Ok K \/
      mtyp h = Some Vector /\ exists ns' n, ns = ns' ++ [n] /\ charged_vector_K (thetas (flav n)) s l h = Ok K))).
Proof.
  unfold sterile_hadrons_interactions. destruct (traverse _ (list_prod ns ms)) as [x|] eqn:Ex; [|discriminate]. cbn [rbind].
  destruct (traverse _ (list_prod ls ms)) as [y|] eqn:Ey; [|discriminate]. cbn [rbind]. intros E I Ht.
  assert (out = concat x ++ concat y) as -> by congruence. apply in_app_or in I.
  assert (WK : forall k ts, In (t, K) (with_K ts k) -> k = K /\ In t ts).
  { intros k ts H. unfold with_K in H. apply in_map_iff in H. destruct H as (t' & H & H'). split; [exact (f_equal snd H)|]. assert (t' = t) as <- by exact (f_equal fst H). exact H'. }
  assert (TP : forall p' l' h', tparts t = ([p'], [l'; h']) -> p' = p /\ l' = l /\ h' = h).
  { intros p' l' h' H. rewrite Ht in H. split; [exact (f_equal (fun x => hd p' (fst x)) (eq_sym H))|]. split; [exact (f_equal (fun x => hd p' (snd x)) (eq_sym H))|exact (f_equal (fun x => last (snd x) p') (eq_sym H))]. }
  destruct I as [I|I]; apply in_concat in I; destruct I as (z & Iz & I).
  - destruct (traverse_in _ _ _ _ Ex Iz) as ((n & m) & Inm & F). apply in_prod_iff in Inm. destruct Inm as (In' & Im). cbn [fst snd] in F.
    unfold nonzero in F. destruct (Req_EM_T (thetas (flav n)) 0) as [|NZ]; [injection F as <-; destruct I|].
    unfold hadrons_neutral in F. destruct (Z.eqb_spec (Q3 m) 0) as [Q|]; [|injection F as <-; destruct I].
    assert (G : forall k, In (t, K) (with_K (sterile_neutral_meson s n m) k) -> k = K /\ p = s /\ l = n /\ h = m).
    { intros k H. apply WK in H. destruct H as (-> & H). split; [reflexivity|]. unfold sterile_neutral_meson, tmpl12 in H.
      destruct H as [<-|[<-|[]]]; destruct (TP s n m eq_refl) as (-> & -> & ->); auto. }
    destruct (mtyp m) as [[|]|] eqn:Et; [| |discriminate].
    + destruct (neutral_scalar_K (thetas (flav n)) s m) as [k|] eqn:Ek; [|discriminate]. cbn [rbind] in F. injection F as <-.
      destruct (G k I) as (-> & -> & -> & ->). auto 10.
    + destruct (neutral_vector_K (thetas (flav n)) s m) as [k|] eqn:Ek; [|discriminate]. cbn [rbind] in F. injection F as <-.
      destruct (G k I) as (-> & -> & -> & ->). auto 10.
  - destruct (traverse_in _ _ _ _ Ey Iz) as ((n & m) & Inm & F). apply in_prod_iff in Inm. destruct Inm as (In' & Im). cbn [fst snd] in F.
    unfold nonzero in F. destruct (Req_EM_T (thetas (flav n)) 0) as [|NZ]; [injection F as <-; destruct I|].
    unfold hadrons_charged in F. destruct (Z.eqb_spec (Q3 m) (-3)) as [Q|]; [|injection F as <-; destruct I].
    assert (G : forall k, In (t, K) (with_K (sterile_charged_meson s n m) k) -> k = K /\ p = s /\ l = n /\ h = m).
    { intros k H. apply WK in H. destruct H as (-> & H). split; [reflexivity|]. unfold sterile_charged_meson, tmpl12 in H.
      destruct H as [<-|[<-|[]]]; destruct (TP s n m eq_refl) as (-> & -> & ->); auto. }
    destruct (mtyp m) as [[|]|] eqn:Et; [| |discriminate].
    + destruct (charged_scalar_K (thetas (flav n)) s n m) as [k|] eqn:Ek; [|discriminate]. cbn [rbind] in F. injection F as <-.
      destruct (G k I) as (-> & -> & -> & ->). auto 10.
    + destruct (rev ns) as [|nl r] eqn:Er; [discriminate|].
      destruct (charged_vector_K (thetas (flav nl)) s n m) as [k|] eqn:Ek; [|discriminate]. cbn [rbind] in F. injection F as <-.
      destruct (G k I) as (-> & -> & -> & ->). split; [reflexivity|]. split; [exact Im|]. split; [exact NZ|]. right. split; [exact In'|]. split; [exact Q|]. right. split; [exact Et|].
      exists (rev r), nl. split; [|exact Ek]. rewrite <- (rev_involutive ns), Er. reflexivity.
Qed.

(* the momentum of the products *)
Lemma q_value M b c q : 0 < M -> 0 <= b -> 0 <= c -> 0 <= q -> sqrt (q ^ 2 + b ^ 2) + sqrt (q ^ 2 + c ^ 2) = M ->
  q = M / 2 * sqrt ((1 - (b / M + c / M) ^ 2) * (1 - (b / M - c / M) ^ 2)).
Proof.
  intros HM Hb Hc Hq HE. pose proof (rest_momentum_lam M b c q Hb Hc Hq HE) as HL.
  replace ((1 - (b / M + c / M) ^ 2) * (1 - (b / M - c / M) ^ 2)) with ((2 * q / M) ^ 2).
  - rewrite sqrt_pow2; [field; lra|]. apply Rmult_le_pos; [lra|]. left. now apply Rinv_0_lt_compat.
  - replace ((2 * q / M) ^ 2) with ((2 * M * q) ^ 2 / M ^ 4) by (field; lra). rewrite <- HL. field. lra.
Qed.

Lemma threshold M b c q : 0 <= b -> 0 <= c -> 0 <= q -> sqrt (q ^ 2 + b ^ 2) + sqrt (q ^ 2 + c ^ 2) = M -> b + c <= M.
Proof. intros Hb Hc Hq <-. apply Rplus_le_compat; [rewrite <- (sqrt_pow2 b) at 1 by lra|rewrite <- (sqrt_pow2 c) at 1 by lra]; apply sqrt_le_1_alt; pose proof (pow2_ge_0 q); lra. Qed.

(* the array returned for a decay of known rate at rest *)
Lemma array_of_rate : forall p b c K G q (rs : nat -> participant) a aT H max_2 maj dof x ys Is cs,
  0 < a -> 0 < aT -> H <> 0 -> x <> 0 -> dof <> 0 -> 0 <= b -> 0 <= c -> b + c < p ->
  BoundsModel.mass (rs 0%nat) = compiled_mass a aT p -> BoundsModel.mass (rs 1%nat) = compiled_mass a aT b ->
  (forall n, (2 <= n)%nat -> BoundsModel.mass (rs n) = compiled_mass a aT c) ->
  sides3_are rs (-1) 1 1 -> (forall n p, exists x, occ (rs n) p = Ok x) ->
  0 <= q -> sqrt (q ^ 2 + b ^ 2) + sqrt (q ^ 2 + c ^ 2) = p ->
  rest_rate K q p / (if (maj : bool) then dof else dof / 2) = G ->
  Forall (fun y => 0 < y) ys -> Forall2 (fun y I => exists st, point3_is rs Ff_vacuum max_2 st (compiled_momentum aT y) I) (0 :: ys) Is ->
  constants3 K a aT H p maj dof 1 x true (List.length (0 :: ys)) = Ok cs ->
  multiply Is cs = map (fun y => - (dilated G p a y / H)) (0 :: ys).
Proof.
  intros p b c K G q rs a aT H max_2 maj dof x ys Is cs Ha HT HH Hx Hd GB GC GT M0 M1 M2 Hs Ho Hq HE <- Hys HI HC.
  rewrite (C133_whole_grid rs (fun n => match n with O => p | 1%nat => b | _ => c end)
     a aT H K q max_2 maj dof 1 x true ys Is cs); try assumption; try lra.
  - apply map_ext. intros y. unfold dilated. destruct maj; field; repeat split; try lra; try assumption; apply Rgt_not_eq, sqrt_lt_R0;
      pose proof (pow2_ge_0 (y / a)); assert (0 < p ^ 2) by (apply pow_lt; lra); lra.
  - intros [|[|n]]; lra.
  - intros [|[|n]]; [exact M0|exact M1|apply M2; lia].
Qed.

Lemma q_exists M b c : 0 <= b -> 0 <= c -> b + c <= M -> 0 < M -> exists q, 0 <= q /\ sqrt (q ^ 2 + b ^ 2) + sqrt (q ^ 2 + c ^ 2) = M /\ (b + c < M -> 0 < q).
Proof.
  intros Hb Hc HT HM. set (L := (M ^ 2 - b ^ 2 - c ^ 2) ^ 2 - 4 * b ^ 2 * c ^ 2).
  assert (EL : L = (M - b - c) * ((M + b + c) * ((M - b + c) * (M + b - c)))) by (unfold L; ring).
  assert (HL : 0 <= L) by (rewrite EL; repeat apply Rmult_le_pos; lra).
  exists (sqrt L / (2 * M)). assert (I : 0 < / (2 * M)) by (apply Rinv_0_lt_compat; lra). split; [apply Rmult_le_pos; [apply sqrt_pos|lra]|].
  assert (E2 : (sqrt L / (2 * M)) ^ 2 = L / (4 * M ^ 2)).
  { unfold Rdiv. rewrite Rpow_mult_distr, pow2_sqrt by exact HL. field. lra. }
  split.
  - rewrite E2. replace (L / (4 * M ^ 2) + b ^ 2) with (((M ^ 2 + b ^ 2 - c ^ 2) / (2 * M)) ^ 2) by (unfold L; field; lra).
    replace (L / (4 * M ^ 2) + c ^ 2) with (((M ^ 2 + c ^ 2 - b ^ 2) / (2 * M)) ^ 2) by (unfold L; field; lra).
    rewrite !sqrt_pow2; [field; lra| |]; (apply Rmult_le_pos; [nra|lra]).
  - intros HS. apply Rmult_lt_0_compat; [|exact I]. apply sqrt_lt_R0. rewrite EL. repeat apply Rmult_lt_0_compat; lra.
Qed.
