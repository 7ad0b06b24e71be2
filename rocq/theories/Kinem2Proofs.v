(* Decoupling temperature, rescaling of fast decays, multipliers, resolutions. *)
From Coq Require Import Reals Lra Psatz.
From Verif Require Import Base EvolveModel ParamsModel ParamsProofs GridsModel GridsProofs ReactionsModel FunctionalModel KinemModel KinemProofs.
Open Scope R_scope.

(* ---------- decoupling temperature ---------- *)
Lemma g_star_values m : (muon_mass < m < lambda_QCD -> g_star m = 1425 / 100) /\ (~ (muon_mass < m < lambda_QCD) -> g_star m = 1075 / 100).
Proof. unfold g_star. destruct (Rlt_dec muon_mass m), (Rlt_dec m lambda_QCD); cbn; split; intros H; try reflexivity; exfalso; lra. Qed.
Lemma muon_lt_QCD : 0 < muon_mass < lambda_QCD.
Proof. unfold muon_mass, lambda_QCD. pose proof MeV_pos. lra. Qed.
Lemma T_rel_pos m th T : T_rel m th = Fin T -> 0 < T.
Proof. unfold T_rel. destruct (Req_EM_T th 0); [discriminate|]. intros H. injection H as <-. apply exp_pos. Qed.
Lemma Tdec_cases m th T : 0 <= m -> T_rel m th = Fin T ->
  (m < T -> decoupling_temperature m th = Fin (15 / 10 * T)) /\
  (2 / 3 * m <= T <= m -> decoupling_temperature m th = Fin (15 / 10 * m)) /\
  (T < 2 / 3 * m -> decoupling_temperature m th = Fin m).
Proof.
  intros Hm HT. unfold decoupling_temperature. rewrite HT.
  destruct (Rlt_dec (15 / 10 * m) (15 / 10 * T)); [repeat split; intros; try reflexivity; exfalso; lra|].
  destruct (Rle_dec m (15 / 10 * T)), (Rle_dec (15 / 10 * T) (15 / 10 * m)); cbn; repeat split; intros; try reflexivity; exfalso; lra.
Qed.
Lemma Tdec_ge_mass m th : 0 <= m -> th <> 0 -> exists T, decoupling_temperature m th = Fin T /\ m <= T /\ 0 < T.
Proof.
  intros Hm Hth. assert (HT : exists T, T_rel m th = Fin T) by (unfold T_rel; destruct (Req_EM_T th 0); [contradiction|eauto]).
  destruct HT as (T & HT). pose proof (T_rel_pos _ _ _ HT) as PT. destruct (Tdec_cases m th T Hm HT) as (A & B & C).
  destruct (Rlt_dec m T); [exists (15 / 10 * T); split; [auto|lra]|].
  destruct (Rle_dec (2 / 3 * m) T); [exists (15 / 10 * m); split; [apply B; lra|lra]|].
  exists m. split; [apply C; lra|lra].
Qed.

(* ---------- rescaling ---------- *)
Lemma quad_scale c w v : quad w (vscale c v) = c * quad w v.
Proof.
  unfold quad, vscale. revert v. induction w as [|x w IH]; intros [|y v]; cbn; try ring. rewrite IH. ring.
Qed.
Lemma vmul_scale_l c u v : vmul (vscale c u) v = vscale c (vmul u v).
Proof. unfold vmul, vscale. revert v. induction u as [|x u IH]; intros [|y v]; cbn; auto. rewrite IH. f_equal. ring. Qed.
Lemma vmul_comm u v : vmul u v = vmul v u.
Proof. unfold vmul. revert v. induction u as [|x u IH]; intros [|y v]; cbn; auto. rewrite IH. f_equal. ring. Qed.
Lemma number_scale w p c v : number w p (vscale c v) = c * number w p v.
Proof. unfold number. now rewrite vmul_scale_l, quad_scale. Qed.
Lemma div_cancel a b : b <> 0 -> a / b * b = a.
Proof. intros. field. auto. Qed.
Lemma scaling_spec w i1 r F C v : scaling w (i1 :: r) F C = Ok (Some v) ->
  creation (i1 :: r) = true -> kfast (ks (last (i1 :: r) i1)) = true ->
  exists b, find_BR (concat_symbols (removelast (i1 :: r))) (kBR (ks (last (i1 :: r) i1))) = Some b /\
    number w (ks i1) (vmul v C) = b * knum (ks (last (i1 :: r) i1)).
Proof.
  intros HS HC HF. unfold scaling in HS. rewrite HC, HF in HS. cbn [andb] in HS.
  destruct (Req_EM_T _ 0) as [|HN]; [discriminate|]. destruct (find_BR _ _) as [b|] eqn:EB; [|discriminate].
  injection HS as <-. exists b. split; [reflexivity|]. rewrite vmul_scale_l, number_scale. apply div_cancel. exact HN.
Qed.
Lemma scaling_zero w i1 r F C : creation (i1 :: r) = true -> kfast (ks (last (i1 :: r) i1)) = true ->
  (scaling w (i1 :: r) F C = Ok None <-> number w (ks i1) (vmul F C) = 0).
Proof.
  intros HC HF. unfold scaling. rewrite HC, HF. cbn [andb]. destruct (Req_EM_T _ 0) as [H|HN]; [tauto|]. split; [|tauto].
  destruct (find_BR _ _); discriminate.
Qed.
Lemma scaling_other w i1 r F C : creation (i1 :: r) && kfast (ks (last (i1 :: r) i1)) = false -> scaling w (i1 :: r) F C = Ok (Some F).
Proof. intros H. unfold scaling. now rewrite H. Qed.
Lemma scaling_unmatched w i1 r F C : creation (i1 :: r) = true -> kfast (ks (last (i1 :: r) i1)) = true ->
  find_BR (concat_symbols (removelast (i1 :: r))) (kBR (ks (last (i1 :: r) i1))) = None -> number w (ks i1) (vmul F C) <> 0 ->
  scaling w (i1 :: r) F C = Raise UnboundLocalError.
Proof. intros HC HF HB HN. unfold scaling. rewrite HC, HF. cbn [andb]. destruct (Req_EM_T _ 0); [contradiction|]. now rewrite HB. Qed.
(* symbols are compared as bags of characters *)
Lemma count_notin c s : ~ In c (chars s) -> count_char c s = 0%nat.
Proof.
  induction s as [|d s IH]; [reflexivity|]. cbn. intros H. destruct (Ascii.eqb_spec c d) as [->|]; [tauto|]. rewrite IH; tauto.
Qed.
Lemma counter_eq_iff s t : counter_eq s t = true <-> (forall c, count_char c s = count_char c t).
Proof.
  unfold counter_eq. rewrite forallb_forall. split.
  - intros H c. destruct (in_dec Ascii.ascii_dec c (chars s ++ chars t)) as [I|N].
    + apply Nat.eqb_eq. now apply H.
    + rewrite !count_notin; auto; intros I; apply N, in_or_app; auto.
  - intros H c _. apply Nat.eqb_eq, H.
Qed.
Lemma counter_eq_refl s : counter_eq s s = true.
Proof. apply counter_eq_iff. reflexivity. Qed.
Lemma find_BR_last sym l k b : counter_eq sym k = true -> find_BR sym (l ++ [(k, b)]) = Some b.
Proof. intros H. unfold find_BR. rewrite fold_left_app. cbn. now rewrite H. Qed.
Lemma find_BR_none sym l : (find_BR sym l = None <-> forall k b, In (k, b) l -> counter_eq sym k = false).
Proof.
  unfold find_BR. induction l as [|[k b] l IH] using rev_ind; [cbn; split; [tauto|auto]|].
  rewrite fold_left_app. cbn. split.
  - destruct (counter_eq sym k) eqn:E; [discriminate|]. intros H k' b' HI. apply in_app_or in HI. destruct HI as [HI|[HI|[]]]; [eapply IH; eauto|congruence].
  - intros H. rewrite (H k b) by (apply in_or_app; cbn; auto). apply IH. intros k' b' HI. eapply H, in_or_app; eauto.
Qed.
Lemma find_BR_in sym l b : find_BR sym l = Some b -> exists k, In (k, b) l /\ counter_eq sym k = true.
Proof.
  unfold find_BR. induction l as [|[k c] l IH] using rev_ind; [discriminate|].
  rewrite fold_left_app. cbn. destruct (counter_eq sym k) eqn:E.
  - intros H. injection H as <-. exists k. split; [apply in_or_app; cbn; auto|auto].
  - intros H. destruct (IH H) as (k' & HI & HE). exists k'. split; [apply in_or_app; auto|auto].
Qed.

(* ---------- tails ---------- *)
Lemma tail_4p_raises w r k fast dist F C v : scaling w r F C = Ok (Some v) -> (2 <= length v)%nat -> tail_4p w r k fast dist F C = Raise ValueError.
Proof. intros HS HL. unfold tail_4p. rewrite HS. cbn. destruct v as [|x [|y v]]; cbn in HL; try lia. reflexivity. Qed.
Lemma tail_3p_works w r k fast dist F C v : scaling w r F C = Ok (Some v) -> (2 <= length v)%nat -> tail_3p w r k fast dist F C = Ok (finish k fast dist v C).
Proof. intros HS HL. unfold tail_3p. rewrite HS. cbn. destruct v as [|x [|y v]]; cbn in HL; try lia. reflexivity. Qed.
Lemma tail_zero w r k fast dist F C : scaling w r F C = Ok None ->
  tail_3p w r k fast dist F C = Ok (return_function k fast (length F)) /\ tail_4p w r k fast dist F C = Ok (return_function k fast (length F)).
Proof. intros HS. unfold tail_3p, tail_4p. rewrite HS. auto. Qed.
Lemma scaling_length w i1 r F C v : scaling w (i1 :: r) F C = Ok (Some v) -> length v = length F.
Proof.
  unfold scaling. destruct (_ && _).
  - destruct (Req_EM_T _ 0); [discriminate|]. destruct (find_BR _ _); [|discriminate]. intros H. injection H as <-. unfold vscale. now rewrite map_length.
  - intros H. now injection H as <-.
Qed.

(* ---------- Icoll_fast_decay ---------- *)
Lemma Icoll_raises w p h backg i ints : Icoll_fast_decay w false p h backg (i :: ints) = Raise AttributeError.
Proof. destruct i as [[r A] B]. reflexivity. Qed.

Lemma vsum_length n vs : (forall v, In v vs -> length v = n) -> length (vsum n vs) = n.
Proof.
  induction vs as [|v vs IH]; intros H; [apply repeat_length|]. cbn. rewrite map_length, combine_length.
  change (fold_right _ _ vs) with (vsum n vs). rewrite IH by (intros; apply H; cbn; auto). rewrite (H v) by (cbn; auto). lia.
Qed.
Definition vadd (u v : list R) : list R := map (fun p => fst p + snd p) (combine u v).
Lemma quad_add w : forall u v, length u = length v -> quad w (vadd u v) = quad w u + quad w v.
Proof.
  unfold quad, vadd. induction w as [|x w IH]; intros [|a u] [|b v] H; cbn in *; try lia; try ring. rewrite IH by lia. ring.
Qed.
Lemma vmul_add : forall u v g, length u = length v -> vmul (vadd u v) g = vadd (vmul u g) (vmul v g).
Proof.
  unfold vmul, vadd. induction u as [|a u IH]; intros [|b v] [|c g] H; cbn in *; try lia; try reflexivity. rewrite IH by lia. f_equal. ring.
Qed.
Lemma vmul_length u v : length (vmul u v) = Nat.min (length u) (length v).
Proof. unfold vmul. now rewrite map_length, combine_length. Qed.
Lemma number_add w p u v : length u = length v -> number w p (vadd u v) = number w p u + number w p v.
Proof. intros H. unfold number. rewrite vmul_add by auto. apply quad_add. rewrite !vmul_length. lia. Qed.
Lemma quad_zeros w n : quad w (zeros n) = 0.
Proof. unfold quad, zeros. revert n. induction w as [|x w IH]; intros [|n]; cbn; auto. rewrite IH. ring. Qed.
Lemma vmul_zeros n : forall g, vmul (zeros n) g = zeros (Nat.min n (length g)).
Proof. unfold vmul, zeros. induction n as [|n IH]; intros [|c g]; cbn; auto. rewrite IH. f_equal. ring. Qed.
Lemma number_zeros w p n : number w p (zeros n) = 0.
Proof. unfold number. rewrite vmul_zeros. apply quad_zeros. Qed.
Lemma number_vsum w p n vs : (forall v, In v vs -> length v = n) -> number w p (vsum n vs) = fold_right Rplus 0 (map (number w p) vs).
Proof.
  induction vs as [|v vs IH]; intros H; [apply number_zeros|]. cbn [map fold_right].
  change (vsum n (v :: vs)) with (vadd v (vsum n vs)). rewrite number_add; [rewrite IH; auto; intros; apply H; cbn; auto|].
  rewrite (H v) by (cbn; auto). symmetry. apply vsum_length. intros; apply H; cbn; auto.
Qed.
Lemma vscale_length c v : length (vscale c v) = length v.
Proof. unfold vscale. apply map_length. Qed.

(* each decay channel removes BR * num_creation *)
Lemma decay_part_number w p num distr old r F br v : decay r = true -> decay_part w true p num distr old r F = Ok (br, v) ->
  number w p (vmul distr F) <> 0 -> exists b, br = Some b /\ number w p v = - (b * num).
Proof.
  intros HD H HN. unfold decay_part, reaction_type_arg, rbind in H. rewrite HD in H.
  assert (HX : number w p (vscale (-1) (vmul distr F)) = - number w p (vmul distr F)) by (rewrite number_scale; ring). rewrite HX in H.
  destruct (Req_EM_T _ 0) as [|HN']; [lra|].
  destruct (match find_BR _ _ with Some b => Some b | None => old end) as [b|]; [|discriminate]. injection H as <- <-. exists b. split; [reflexivity|].
  rewrite number_scale, (vmul_comm F distr). field. exact HN.
Qed.

(* the branching ratio of a decay reaction: the table entry matching its products *)
Definition BR_of (r : list kitem) : option R :=
  find_BR (concat_symbols (tl r)) (match r with i :: _ => kBR (ks i) | [] => [] end).
Lemma decay_part_ok w p num distr old r F b : decay r = true -> BR_of r = Some b -> number w p (vmul distr F) <> 0 ->
  exists v, decay_part w true p num distr old r F = Ok (Some b, v) /\ number w p v = - (b * num) /\ length v = Nat.min (length F) (length distr).
Proof.
  intros HD HB HN. unfold decay_part, reaction_type_arg, rbind. rewrite HD. unfold BR_of in HB. rewrite HB.
  assert (HX : number w p (vscale (-1) (vmul distr F)) = - number w p (vmul distr F)) by (rewrite number_scale; ring). rewrite HX.
  destruct (Req_EM_T _ 0) as [|HN']; [lra|]. eexists. split; [reflexivity|]. split.
  - rewrite number_scale, (vmul_comm F distr). field. exact HN.
  - now rewrite vscale_length, vmul_length.
Qed.
Lemma decay_parts_ok w p num distr n : length distr = n -> forall l bs old,
  Forall2 (fun i b => decay (fst i) = true /\ BR_of (fst i) = Some b /\ length (snd i) = n /\ number w p (vmul distr (snd i)) <> 0) l bs ->
  exists vs, decay_parts w true p num distr old l = Ok vs /\ (forall v, In v vs -> length v = n) /\
    fold_right Rplus 0 (map (number w p) vs) = - (fold_right Rplus 0 bs * num).
Proof.
  intros Hn l bs. revert l. induction bs as [|b bs IH]; intros l old HF; inversion HF as [|[r F] ? l' ? (HD & HB & HL & HN) HF']; subst.
  - exists []. split; [reflexivity|]. split; [intros ? []|]. cbn. ring.
  - cbn [fst snd] in *. destruct (decay_part_ok w p num distr old r F b HD HB HN) as (v & E & Hv & HvL). destruct (IH l' (Some b) HF') as (vs & E2 & HLs & HS).
    exists (v :: vs). cbn [decay_parts]. rewrite E. cbn [rbind fst snd]. rewrite E2. cbn [rbind]. split; [reflexivity|]. split.
    + intros u [<-|HI]; [lia|auto].
    + cbn [map fold_right]. rewrite HS, Hv. ring.
Qed.
Lemma Icoll_balance w p h backg ints bs n :
  n = length (kgrid p) -> length backg = n -> (forall i, In i ints -> length (snd (fst i)) = n /\ length (snd i) = n) ->
  let F1tot := vsum n (map (fun i => snd (fst i)) ints) in
  let distr := vsum n [backg; vscale h F1tot] in
  Forall2 (fun i b => decay (fst (fst i)) = true /\ BR_of (fst (fst i)) = Some b /\ number w p (vmul distr (snd i)) <> 0) ints bs ->
  exists v, Icoll_fast_decay w true p h backg ints = Ok (v, number w p F1tot) /\ length v = n /\
    number w p v = (1 - fold_right Rplus 0 bs) * number w p F1tot.
Proof.
  intros Hn HB HL F1tot distr HF.
  assert (HLF : length F1tot = n). { apply vsum_length. intros v Hv. apply in_map_iff in Hv. destruct Hv as (i & <- & Hi). apply (HL i Hi). }
  assert (HLd : length distr = n). { apply vsum_length. intros v [<-|[<-|[]]]; [auto|]. now rewrite vscale_length. }
  assert (HF' : Forall2 (fun i b => decay (fst i) = true /\ BR_of (fst i) = Some b /\ length (snd i) = n /\ number w p (vmul distr (snd i)) <> 0)
                 (map (fun i : list kitem * list R * list R => (fst (fst i), snd i)) ints) bs).
  { clear - HF HL. generalize dependent distr. intros distr HF. induction HF as [|i b ints bs (A & B & C) HF IH]; cbn; constructor; auto.
    - cbn. repeat split; auto. apply (HL i); cbn; auto.
    - apply IH. intros j Hj. apply HL. cbn; auto. }
  destruct (decay_parts_ok w p (number w p F1tot) distr n HLd _ _ None HF') as (vs & E & HLs & HS).
  unfold Icoll_fast_decay. cbv zeta. rewrite <- Hn. fold F1tot. fold distr. rewrite E. cbn [rbind]. eexists. split; [reflexivity|].
  assert (HLp : length (vsum n vs) = n) by (apply vsum_length; auto).
  split.
  - apply vsum_length. intros v [<-|[<-|[]]]; auto.
  - rewrite number_vsum; [|intros v [<-|[<-|[]]]; auto]. cbn [map fold_right]. rewrite (number_vsum w p n vs) by auto. rewrite HS. ring.
Qed.

(* ---------- multipliers ---------- *)
Definition copies (s : Z) (r : list kitem) : nat :=
  match r with i :: _ => length (filter (fun j => Nat.eqb (kid (ks j)) (kid (ks i)) && Z.eqb (kside j) s) r) | [] => 0%nat end.
Lemma count_side_copies s i r : count_side s (kid (ks i)) (i :: r) = copies s (i :: r).
Proof. unfold count_side, copies. f_equal. apply filter_ext. intros j. apply andb_comm. Qed.

(* ---------- resolutions ---------- *)
Lemma res_HNL_bounds : 1 / 2 * MeV < res_HNL <= MeV.
Proof.
  unfold res_HNL. pose proof MeV_pos as HM. assert (H3 : 3 < PI) by (pose proof PI2_3_2; lra). pose proof PI_4.
  assert (HI : / 4 <= / PI < / 3) by (split; [apply Rinv_le_contravar; lra|apply Rinv_lt_contravar; lra]).
  assert (Hx : 1 / 3 < 3 - 8 / PI <= 1) by (unfold Rdiv; lra).
  assert (Hs : 1 / 2 < sqrt (3 - 8 / PI) <= 1).
  { assert (P : 0 <= sqrt (3 - 8 / PI)) by apply sqrt_pos. assert (Q : sqrt (3 - 8 / PI) ^ 2 = 3 - 8 / PI) by (apply pow2_sqrt; lra). nra. }
  nra.
Qed.
Lemma MeV_le_res x : 0 < x -> 0 < x * MeV.
Proof. intros. apply Rmult_lt_0_compat; [auto|apply MeV_pos]. Qed.

Lemma chosen_heaviest l mass : incr l -> (0 < length l)%nat -> rnth l 0 < mass ->
  In (chosen_meson l mass) l /\ chosen_meson l mass < mass /\ (forall x, In x l -> x < mass -> x <= chosen_meson l mass).
Proof.
  intros Hl HL H0. unfold chosen_meson. set (k := searchsorted_left l mass).
  assert (Hk : (k <= length l)%nat) by apply ssl_le.
  assert (Hk0 : (0 < k)%nat). { destruct k as [|k'] eqn:E; [|lia]. exfalso. pose proof (ssl_at l mass ltac:(fold k; lia)) as HA. fold k in HA. rewrite E in HA. lra. }
  destruct k as [|j] eqn:E; [lia|]. cbn [np_pick]. change (nth j l 0) with (rnth l j).
  assert (Hj : (j < length l)%nat) by lia. split; [apply nth_In; auto|]. split.
  - apply ssl_below. fold k. lia.
  - intros x Hx Hxm. destruct (In_nth l x 0 Hx) as (i & Hi & <-). change (nth i l 0) with (rnth l i) in *.
    apply incr_le; auto. destruct (Nat.le_gt_cases i j) as [|HG]; [auto|]. exfalso.
    assert (HA : mass <= rnth l (S j)) by (rewrite <- E; apply ssl_at; fold k; lia). pose proof (incr_le l (S j) i Hl ltac:(lia) Hi). lra.
Qed.
Lemma chosen_at_pion l mass : incr l -> (0 < length l)%nat -> mass <= rnth l 0 -> chosen_meson l mass = last l 0.
Proof.
  intros Hl HL H0. unfold chosen_meson. destruct (searchsorted_left l mass) as [|j] eqn:E; [reflexivity|].
  pose proof (ssl_below l mass 0%nat ltac:(lia)). lra.
Qed.
Lemma scaled_incr l : incr l -> incr (map (fun x => x * MeV) l).
Proof.
  intros H i j Hij Hj. rewrite map_length in Hj. unfold rnth in *. rewrite !(nth_indep _ 0 (0 * MeV)) by (rewrite map_length; lia). rewrite !(map_nth (fun x => x * MeV)).
  apply Rmult_lt_compat_r; [apply MeV_pos|]. apply H; auto.
Qed.
Fixpoint incrb (l : list R) : Prop := match l with x :: (y :: _) as t => x < y /\ incrb t | _ => True end.
Lemma incrb_incr l : incrb l -> incr l.
Proof.
  induction l as [|x l IH]; intros H i j Hij Hj; [cbn in Hj; lia|]. destruct l as [|y l]; [cbn in Hj; lia|]. destruct H as [Hxy H]. specialize (IH H).
  destruct j as [|j]; [lia|]. destruct i as [|i].
  - change (rnth (x :: y :: l) 0) with x. change (rnth (x :: y :: l) (S j)) with (rnth (y :: l) j). cbn in Hj.
    destruct j as [|j]; [exact Hxy|]. apply Rlt_trans with y; [auto|]. change y with (rnth (y :: l) 0) at 1. apply IH; cbn; lia.
  - apply (IH i j); cbn in *; lia.
Qed.
Lemma mesons_nu_incr : incr mesons_nu.
Proof. apply scaled_incr, incrb_incr. cbn. lra. Qed.
Lemma mesons_incr : incr mesons.
Proof. apply scaled_incr, incrb_incr. cbn. lra. Qed.

Lemma cm0_pos mass M : 0 < mass -> M <> mass -> 0 <= M -> 0 < cm0 mass M.
Proof.
  intros H HM H0. unfold cm0. apply Rmult_lt_0_compat; [|apply Rinv_0_lt_compat; lra]. apply Rabs_pos_lt. nra.
Qed.
Lemma cm0_is_cm mass M : mass <> 0 -> cm_momentum mass 0 M = Fin (cm0 mass M).
Proof.
  intros H. unfold cm_momentum, cm0. replace ((mass ^ 2 - 0 ^ 2 - M ^ 2) ^ 2 - (2 * 0 * M) ^ 2) with (Rsqr (mass ^ 2 - M ^ 2)) by (unfold Rsqr; ring).
  unfold nsqrt. destruct (Rlt_dec _ 0) as [HL|]; [pose proof (Rle_0_sqr (mass ^ 2 - M ^ 2)); lra|]. rewrite sqrt_Rsqr_abs. unfold ndiv. destruct (Req_EM_T _ 0); [lra|reflexivity].
Qed.
Lemma pick_ne l mass : incr l -> (2 <= length l)%nat -> rnth l 0 <= mass -> 0 <= rnth l 0 -> chosen_meson l mass <> mass /\ 0 <= chosen_meson l mass.
Proof.
  intros Hl HL Hm H0. destruct (Req_dec (rnth l 0) mass) as [E|N].
  - rewrite chosen_at_pion by (auto; lia || lra). assert (HX : last l 0 = rnth l (length l - 1)).
    { unfold rnth. clear - HL. destruct l as [|x l]; [cbn in HL; lia|]. clear HL. revert x. induction l as [|y l IH]; intros x; [reflexivity|].
      change (last (x :: y :: l) 0) with (last (y :: l) 0). rewrite IH. cbn. now rewrite Nat.sub_0_r. }
    rewrite HX. pose proof (Hl 0%nat (length l - 1)%nat ltac:(lia) ltac:(lia)). lra.
  - destruct (chosen_heaviest l mass Hl ltac:(lia) ltac:(lra)) as (A & B & C). split; [lra|].
    apply Rle_trans with (rnth l 0); [auto|]. apply C; [apply nth_In; lia|lra].
Qed.
Lemma res_neutrino_bounds res mass : 0 < res -> 0 < mass -> 0 < res_neutrino res mass <= res * MeV.
Proof.
  intros Hr Hm. pose proof (MeV_le_res res Hr) as HP. unfold res_neutrino. destruct (Rlt_dec _ _) as [|HN].
  - destruct (_ && _); lra.
  - apply Rnot_lt_le in HN. destruct (pick_ne mesons_nu mass mesons_nu_incr ltac:(cbn; lia) HN) as [HA HB]; [unfold rnth, mesons_nu; cbn [map nth]; pose proof MeV_pos; lra|].
    pose proof (cm0_pos mass _ Hm HA HB) as HC. destruct res_HNL_bounds as [HH _]. pose proof MeV_pos.
    split.
    + apply Rmin_glb_lt; [|lra]. apply Rmult_lt_0_compat; [|lra]. apply Rmult_lt_0_compat; [|now apply Rinv_0_lt_compat].
      apply Rmult_lt_0_compat; lra.
    + eapply Rle_trans; [apply Rmin_r|lra].
Qed.
Lemma res_meson_bounds res mass : 0 < res -> 0 < mass -> 0 < res_meson res mass <= res * MeV.
Proof.
  intros Hr Hm. pose proof (MeV_le_res res Hr) as HP. unfold res_meson. destruct (Rlt_dec _ _) as [|HN]; [lra|]. cbv zeta.
  split.
  - apply Rmin_glb_lt; [|auto]. match goal with |- context [match ?d with Fin x => _ | PInf => _ | NInf => _ | NaN => _ end / 3] => destruct d as [x| | |] end; try lra. destruct (Rlt_dec 0 x); lra.
  - apply Rmin_r.
Qed.

(* ---------- HNL grid ---------- *)
Lemma ln10_bounds : 2 < ln 10 < 4.
Proof.
  split.
  - rewrite <- (ln_exp 2). apply ln_increasing; [apply exp_pos|]. pose proof exp_le_3 as H. pose proof (exp_pos 1).
    replace 2 with (1 + 1) by ring. rewrite exp_plus. nra.
  - rewrite <- (ln_exp 4) at 1. apply ln_increasing; [lra|]. assert (H : 2 < exp 1) by (pose proof (exp_ineq1 1); lra).
    replace 4 with (1 + 1 + (1 + 1)) by ring. rewrite !exp_plus. set (e := exp 1) in *. assert (4 < e * e) by nra. nra.
Qed.
Lemma ln_1e100 : ln (10 ^ 100) = 100 * ln 10.
Proof.
  assert (H : forall n, ln (10 ^ n) = INR n * ln 10).
  { induction n as [|n IH]; [cbn; rewrite ln_1; ring|]. rewrite <- tech_pow_Rmult, ln_mult; [rewrite IH, S_INR; ring|lra|apply pow_lt; lra]. }
  rewrite H. f_equal. rewrite INR_IZR_INZ. reflexivity.
Qed.
Lemma params_HNL_bounds mass th : 0 <= mass -> exists n mx, params_HNL mass th = Some (n, mx) /\
  199 * MeV < mx < 400 * MeV /\ (199 <= n <= 800)%Z /\ IZR n <= mx / res_HNL < IZR n + 1 /\
  (forall T, decoupling_temperature mass th = Fin T -> exp (- (sqrt (mx ^ 2 + (mass * (MeV / T)) ^ 2) / MeV)) = / 10 ^ 100).
Proof.
  intros Hm. pose proof MeV_pos as HM. unfold params_HNL.
  set (m_a := match decoupling_temperature mass th with Fin Td => _ | _ => _ end).
  assert (HA : 0 <= m_a <= MeV).
  { unfold m_a. destruct (Req_EM_T th 0) as [->|N].
    - unfold decoupling_temperature, T_rel. destruct (Req_EM_T 0 0); [lra|contradiction].
    - destruct (Tdec_ge_mass mass th Hm N) as (T & HT & H1 & H2). rewrite HT. assert (HI : 0 < / T) by now apply Rinv_0_lt_compat. 
      assert (HQ : mass * / T <= 1). { rewrite <- (Rinv_r T) by lra. apply Rmult_le_compat_r; lra. }
      assert (0 <= mass * / T) by (apply Rmult_le_pos; lra). unfold Rdiv. replace (mass * (MeV * / T)) with (MeV * (mass * / T)) by ring. nra. }
  set (L := ln (10 ^ 100)). assert (HL : 200 < L < 400) by (unfold L; rewrite ln_1e100; pose proof ln10_bounds; lra).
  assert (HX : (199 * MeV) ^ 2 < (MeV * L) ^ 2 - m_a ^ 2).
  { assert (200 * MeV < MeV * L) by nra. assert ((200 * MeV) ^ 2 < (MeV * L) ^ 2) by nra. nra. }
  assert (HX2 : (MeV * L) ^ 2 - m_a ^ 2 < (400 * MeV) ^ 2) by (assert (0 < MeV * L < MeV * 400) by nra; nra).
  unfold nsqrt. destruct (Rlt_dec _ 0) as [HN|_]; [nra|]. set (mx := sqrt ((MeV * L) ^ 2 - m_a ^ 2)).
  assert (HS : mx ^ 2 = (MeV * L) ^ 2 - m_a ^ 2) by (apply pow2_sqrt; nra). assert (HP : 0 <= mx) by apply sqrt_pos.
  assert (HB : 199 * MeV < mx < 400 * MeV) by nra.
  destruct res_HNL_bounds as [HR1 HR2]. set (q := mx / res_HNL). destruct (archimed q) as [A1 A2].
  assert (HQ : 199 < q < 800).
  { assert (HI : 0 < / res_HNL) by (apply Rinv_0_lt_compat; lra). unfold q, Rdiv. split.
    - apply (Rmult_lt_reg_r res_HNL); [lra|]. rewrite Rmult_assoc, Rinv_l by lra. nra.
    - apply (Rmult_lt_reg_r res_HNL); [lra|]. rewrite Rmult_assoc, Rinv_l by lra. nra. }
  exists (up q - 1)%Z, mx. split; [reflexivity|]. split; [auto|]. fold q. rewrite minus_IZR. split; [|split; [lra|]].
  - assert (199 < up q)%Z by (apply lt_IZR; lra). assert (up q < 801)%Z by (apply lt_IZR; lra). lia.
  - intros T HT. unfold m_a in HS. rewrite HT in HS. replace (mx ^ 2 + (mass * (MeV / T)) ^ 2) with ((MeV * L) ^ 2) by (rewrite HS; ring). rewrite sqrt_sq by (apply Rmult_le_pos; lra).
    replace (- (MeV * L / MeV)) with (- L) by (field; lra). rewrite exp_Ropp. unfold L. rewrite exp_ln; [reflexivity|]. apply pow_lt. lra.
Qed.

(* ---------- neglected interactions ---------- *)
Lemma not_diluted_zero thr s : kdensity0 s = 0 -> 0 <= kdensity s -> diluted thr s = false.
Proof.
  intros H0 H. unfold diluted, dless, ndiv. rewrite H0. destruct (Req_EM_T 0 0); [|contradiction]. destruct (Req_EM_T _ 0); [reflexivity|]. destruct (Rlt_dec 0 _); [reflexivity|lra].
Qed.
Lemma diluted_iff thr s : 0 < kdensity0 s -> (diluted thr s = true <-> kdensity s < thr * kdensity0 s).
Proof.
  intros H0. unfold diluted, dless, ndiv. destruct (Req_EM_T _ 0); [lra|].
  assert (HI : 0 < / kdensity0 s) by now apply Rinv_0_lt_compat.
  assert (E : kdensity s = kdensity s / kdensity0 s * kdensity0 s) by (field; lra).
  destruct (Rlt_dec _ thr) as [H|H]; split; intros HH; auto; try discriminate.
  - rewrite E. apply Rmult_lt_compat_r; auto.
  - exfalso. apply H. apply (Rmult_lt_reg_r (kdensity0 s)); [auto|]. rewrite <- E. auto.
Qed.
Lemma dec_bool (P : Prop) (d : {P} + {~ P}) : (if d then true else false) = true <-> P.
Proof. destruct d; split; intros; auto; discriminate. Qed.
