(* The library's matrix elements. *)
From Coq Require Import Reals Lra Permutation Psatz.
From Verif Require Import Base CrossModel CrossProofs CrossProofs2 CrossProofs3 CrossProofs4 ParamsModel LibModel LibProofs Lib2Proofs Lib3Proofs MatrixModel MatrixProofs.
Open Scope R_scope.

Lemma weak_pos : 0 < 32 * G_Fermi ^ 2.
Proof.
  assert (0 < G_Fermi); [|apply Rmult_lt_0_compat; [lra|apply pow_lt; assumption]].
  unfold G_Fermi, MeV, eV. assert (0 < 10 ^ 9) by (apply pow_lt; lra). assert (0 < / 10 ^ 9) by now apply Rinv_0_lt_compat. assert (0 < 10 ^ 5) by (apply pow_lt; lra).
  apply Rdiv_lt_0_compat; [apply Rdiv_lt_0_compat; [lra|assumption]|]. apply pow_lt. nra.
Qed.
Lemma weak_attractive K1 o : Permutation (store_order o) (seq 0 4) -> 0 <= K1 -> attractive (weak K1 0 o).
Proof.
  intros HP HK. exists (store_order o), (K1 * (32 * G_Fermi ^ 2)). pose proof weak_pos. split; [unfold weak; f_equal; ring|]. split; [exact HP|nra].
Qed.
Lemma sterile_attractive th K1 o : Permutation (store_order o) (seq 0 4) -> 0 <= K1 -> attractive (sterileM th K1 0 o).
Proof.
  intros HP HK. exists (store_order o), (K1 * (32 * G_Fermi ^ 2) * th ^ 2). pose proof weak_pos. pose proof (pow2_ge_0 th). split; [unfold sterileM; f_equal; ring|]. split; [exact HP|].
  apply Rmult_le_pos; [nra|assumption].
Qed.
Lemma perm4b (o : list nat) : length o = 4%nat -> forallb (fun i => existsb (Nat.eqb i) o) (seq 0 4) = true -> Permutation o (seq 0 4).
Proof.
  intros HL H. rewrite forallb_forall in H. symmetry. apply NoDup_Permutation_bis; [apply seq_NoDup|rewrite seq_length; lia|].
  intros x Hx. apply H in Hx. apply existsb_exists in Hx. destruct Hx as (y & Hy & E). apply Nat.eqb_eq in E. now subst.
Qed.
Ltac perm4 := apply perm4b; reflexivity.

(* non-negative amplitudes of an interaction *)
Definition nonneg_amplitudes (t : tmpl) (Ms : list mel) : Prop :=
  exists out, cross_generating (species_of t) (tflags t) Ms = Ok out /\ forall o, In o out -> forall p m, physical (ireaction o) p m -> 0 <= total (CrossModel.Ms o) p m.
Lemma attractive_amplitudes t Ms : flags_fit t -> told_apart (parts t) -> length (parts t) = 4%nat -> Forall attractive Ms -> nonneg_amplitudes t Ms.
Proof.
  intros HF HD H4 HM. assert (L : (length (fst (species_of t)) + length (snd (species_of t)) = 4)%nat).
  { unfold species_of. cbn [fst snd]. rewrite !map_length, <- app_length. exact H4. }
  apply amplitudes_nonneg; [exact HF|now apply told_distinct|exact L|eapply Forall_impl; [|exact HM]; apply attractive_proper|].
  intros r p m HG HP. now apply (attractive_nonneg (species_of t) (tflags t)).
Qed.
Lemma interfering_amplitudes s a l fa fb fc fd Ms A B C : smass (sp a) = 0%Z -> told_apart [s; a; l; l] -> Forall proper Ms ->
  (forall q mu, total Ms q mu = A * (dot (q 0%nat) (q 2%nat) * dot (q 1%nat) (q 3%nat)) + B * (dot (q 0%nat) (q 3%nat) * dot (q 1%nat) (q 2%nat)) + C * (mu 2%nat * mu 3%nat * dot (q 0%nat) (q 1%nat))) ->
  0 <= A -> 0 <= B -> C ^ 2 <= A * B -> nonneg_amplitudes (tmpl22 s a l l fa fb fc fd) Ms.
Proof.
  intros Ma HD HM HT HA HB HC. apply amplitudes_nonneg; [split; reflexivity|apply told_distinct; exact HD|reflexivity|exact HM|].
  intros r p m HG HP. exact (interfering_nonneg (sp s) (sp a) (sp l) fa fb fc fd r p m Ms A B C Ma HG HP HT HA HB HC).
Qed.
Lemma total3 a b c q mu : total [a; b; c] q mu = Msq a q mu + Msq b q mu + Msq c q mu.
Proof. unfold total. cbn [map fold_right]. ring. Qed.
Lemma annihilation_amplitudes n l g : smass (sp n) = 0%Z -> told_apart [n; l] -> nonneg_amplitudes (neutrinos_to_leptons n l) (annihilation_Ms g).
Proof.
  intros Hn HD. pose proof weak_pos as W. set (w := 32 * G_Fermi ^ 2) in *.
  apply (interfering_amplitudes n n l false true false true _ (4 * g ^ 2 * w) (4 * g_R ^ 2 * w) (4 * g * g_R * w)); [exact Hn|eapply told_incl; [|exact HD]; intros z; cbn; intuition| | | | |].
  - repeat (apply Forall_cons; [eexists _, _, _; split; [reflexivity|perm4]|]). apply Forall_nil.
  - intros q mu. unfold annihilation_Ms. rewrite total3. unfold weak, store_order. cbn [firstn skipn nsorted fold_right ninsert Nat.ltb Nat.leb app Msq]. fold w. ring.
  - apply Rmult_le_pos; [|lra]. pose proof (pow2_ge_0 g). lra.
  - apply Rmult_le_pos; [|lra]. pose proof (pow2_ge_0 g_R). lra.
  - right. ring.
Qed.
Lemma NC_amplitudes s n l th g (second : bool) : smass (sp n) = 0%Z -> told_apart [s; n; l] ->
  nonneg_amplitudes ((if second then snd else fst) (sterile_NC s n l)) (sterile_NC_Ms th g).
Proof.
  intros Hn HD. pose proof weak_pos as W. set (w := 32 * G_Fermi ^ 2) in *. pose proof (pow2_ge_0 th) as Ht.
  assert (G : forall fa fb fc fd, nonneg_amplitudes (tmpl22 s n l l fa fb fc fd) (sterile_NC_Ms th g)); [|destruct second; apply G].
  intros fa fb fc fd. apply (interfering_amplitudes s n l fa fb fc fd _ (4 * g ^ 2 * w * th ^ 2) (4 * g_R ^ 2 * w * th ^ 2) (4 * g_R * g * w * th ^ 2)); [exact Hn|eapply told_incl; [|exact HD]; intros z; cbn; intuition| | | | |].
  - repeat (apply Forall_cons; [eexists _, _, _; split; [reflexivity|perm4]|]). apply Forall_nil.
  - intros q mu. unfold sterile_NC_Ms. rewrite total3. unfold sterileM, store_order. cbn [firstn skipn nsorted fold_right ninsert Nat.ltb Nat.leb app Msq]. fold w. ring.
  - apply Rmult_le_pos; [|assumption]. apply Rmult_le_pos; [|lra]. pose proof (pow2_ge_0 g). lra.
  - apply Rmult_le_pos; [|assumption]. apply Rmult_le_pos; [|lra]. pose proof (pow2_ge_0 g_R). lra.
  - right. ring.
Qed.
Lemma quark_neutral_amplitudes s n q th Ms : smass (sp n) = 0%Z -> told_apart [s; n; q] -> quark_neutral_Ms th q = Ok Ms -> nonneg_amplitudes (sterile_quark_neutral s n q) Ms.
Proof.
  intros Hn HD E. pose proof weak_pos as W. set (w := 32 * G_Fermi ^ 2) in *. pose proof (pow2_ge_0 th) as Ht.
  assert (G : forall g, nonneg_amplitudes (sterile_quark_neutral s n q) [sterileM th (16 / 9 * g ^ 2) 0 [0; 2; 1; 3]%nat; sterileM th (1 / 9 * (3 - 4 * g) ^ 2) 0 [0; 3; 1; 2]%nat; sterileM th 0 (- (4 / 9) * g * (3 - 4 * g)) [2; 3; 0; 1]%nat]).
  { intros g. set (x := 3 - 4 * g). apply (interfering_amplitudes s n q false true false true _ (16 / 9 * g ^ 2 * w * th ^ 2) (1 / 9 * x ^ 2 * w * th ^ 2) (- (4 / 9) * g * x * w * th ^ 2)); [exact Hn|eapply told_incl; [|exact HD]; intros z; cbn; intuition| | | | |].
    - repeat (apply Forall_cons; [eexists _, _, _; split; [reflexivity|perm4]|]). apply Forall_nil.
    - intros p mu. rewrite total3. unfold sterileM, store_order. cbn [firstn skipn nsorted fold_right ninsert Nat.ltb Nat.leb app Msq]. fold w. ring.
    - apply Rmult_le_pos; [|assumption]. apply Rmult_le_pos; [|lra]. pose proof (pow2_ge_0 g). lra.
    - apply Rmult_le_pos; [|assumption]. apply Rmult_le_pos; [|lra]. pose proof (pow2_ge_0 x). lra.
    - right. field. }
  unfold quark_neutral_Ms in E. destruct (Q3 q =? -1)%Z; cbn [rbind] in E; [injection E as <-; apply G|]. destruct (Q3 q =? 2)%Z; cbn [rbind] in E; [injection E as <-; apply G|discriminate].
Qed.

(* all four-particle interactions of the libraries *)
Lemma standard_nonneg ls ns t Ms : told_apart (ls ++ ns) -> (forall n, In n ns -> smass (sp n) = 0%Z) ->
  In (t, Ms) (neutrino_interactions_M ls ns ++ lepton_interactions_M ls ns) -> nonneg_amplitudes t Ms.
Proof.
  intros HD HN H. apply in_app_or in H. destruct H as [H|H].
  - unfold neutrino_interactions_M in H. apply in_app_or in H. destruct H as [H|H].
    + apply in_map_iff in H. destruct H as ((a & b) & E & I). injection E as <- <-. apply cwr2_in in I. destruct I as (l1 & l2 & -> & I).
      apply attractive_amplitudes; [split; reflexivity| |reflexivity|].
      * eapply told_incl; [|exact HD]. cbn [fst snd] in *. assert (In a (ls ++ l1 ++ a :: l2)) by (rewrite !in_app_iff; cbn; auto). assert (In b (ls ++ l1 ++ a :: l2)) by (rewrite !in_app_iff; cbn in *; intuition).
        intros z. cbn. intuition (subst; auto).
      * apply Forall_cons; [|apply Forall_nil]. apply weak_attractive; [perm4|lra].
    + apply in_flat_map in H. destruct H as (l & Il & H). apply in_map_iff in H. destruct H as (n & E & I). injection E as <- <-.
      apply annihilation_amplitudes; [now apply HN|]. eapply told_incl; [|exact HD]. intros z. cbn. rewrite in_app_iff. intuition (subst; auto).
  - unfold lepton_interactions_M in H. apply in_map_iff in H. destruct H as (t' & E & I). injection E as <- <-.
    destruct (fit_neutrino ls ns t') as (F & P); [apply in_or_app; auto|]. assert (L : length (parts t') = 4%nat) by (apply lepton_interactions_iff in I; destruct I as (n & on & l & ol & -> & _); reflexivity).
    apply attractive_amplitudes; [exact F|eapply told_incl; eauto|exact L|]. apply Forall_cons; [|apply Forall_nil]. apply weak_attractive; [perm4|lra].
Qed.
Lemma sterile_leptons_nonneg thetas s ls ns t Ms : told_apart (s :: ls ++ ns) -> (forall n, In n ns -> smass (sp n) = 0%Z) ->
  In (t, Ms) (sterile_leptons_interactions_M thetas s ns ls) -> nonneg_amplitudes t Ms.
Proof.
  intros HD HN H. unfold sterile_leptons_interactions_M in H. apply in_app_or in H. destruct H as [H|H].
  - apply in_flat_map in H. destruct H as ((a & b) & I & H). apply in_prod_iff in I. destruct I as (Ia & Ib). cbn [fst snd] in H. destruct (nonzero _); [|destruct H].
    assert (HD' : told_apart [s; a; b]) by (eapply told_incl; [|exact HD]; intros z; cbn; rewrite in_app_iff; intuition (subst; auto)).
    assert (K : 0 <= (if (sid (sp a) =? sid (sp b))%nat then 2 else 1)) by (destruct (_ =? _)%nat; lra).
    destruct H as [E|[E|[]]]; injection E as <- <-; (apply attractive_amplitudes; [split; reflexivity|eapply told_incl; [|exact HD']; intros z; cbn; intuition|reflexivity|]);
      (apply Forall_cons; [|apply Forall_nil]); (apply sterile_attractive; [perm4|exact K]).
  - apply in_flat_map in H. destruct H as (l & Il & H). apply in_flat_map in H. destruct H as (n & In' & H). apply in_app_or in H. destruct H as [H|H].
    + destruct (nonzero _); [|destruct H].
      assert (HD' : told_apart [s; n; l]) by (eapply told_incl; [|exact HD]; intros z; cbn; rewrite in_app_iff; intuition (subst; auto)).
      destruct H as [E|[E|[]]]; injection E as <- <-; [apply (NC_amplitudes s n l _ _ false)|apply (NC_amplitudes s n l _ _ true)]; auto.
    + destruct (1 <? length ls)%nat; [|destruct H]. apply in_flat_map in H. destruct H as (ol & Io & H). apply others_in in Io. destruct Io as (Io & _). destruct (_ && _)%bool; [|destruct H].
      assert (HD' : told_apart [s; n; l; ol]) by (eapply told_incl; [|exact HD]; intros z; cbn; rewrite in_app_iff; intuition (subst; auto)).
      destruct H as [E|[E|[]]]; injection E as <- <-; (apply attractive_amplitudes; [split; reflexivity|eapply told_incl; [|exact HD']; intros z; cbn; intuition|reflexivity|]);
        (apply Forall_cons; [|apply Forall_nil]); (apply sterile_attractive; [perm4|lra]).
Qed.
Lemma sterile_quarks_nonneg thetas s ls ns qs out t Ms : told_apart (s :: ls ++ ns ++ qs) -> (forall n, In n ns -> smass (sp n) = 0%Z) ->
  sterile_quark_interactions_M thetas s ns ls qs = Ok out -> In (t, Ms) out -> nonneg_amplitudes t Ms.
Proof.
  intros HD HN E H. unfold sterile_quark_interactions_M in E. cbn beta in E.
  match type of E with rbind ?m _ = _ => destruct m as [xs|] eqn:Ex; [|discriminate] end. cbn [rbind] in E.
  match type of E with rbind ?m _ = _ => destruct m as [ys|] eqn:Ey; [|discriminate] end. cbn [rbind] in E. injection E as <-.
  apply in_app_or in H. destruct H as [H|H]; apply in_concat in H; destruct H as (y & Iy & H).
  - destruct (traverse_in _ _ _ _ Ex Iy) as ((q & n) & I & F). apply in_prod_iff in I. destruct I as (Iq & In'). cbn [fst snd] in F. destruct (nonzero _); [|injection F as <-; destruct H].
    destruct (quark_neutral_Ms _ q) as [Ms'|] eqn:EM; [|discriminate]. cbn [rbind] in F. injection F as <-. destruct H as [H|[]]. injection H as <- <-.
    eapply quark_neutral_amplitudes; [now apply HN| |exact EM]. eapply told_incl; [|exact HD]. intros z. cbn. rewrite !in_app_iff. intuition (subst; auto).
  - destruct (traverse_in _ _ _ _ Ey Iy) as (((u & d) & l) & I & F). apply in_prod_iff in I. destruct I as (I & Il). apply in_prod_iff in I. destruct I as (Iu & Id). apply filter_In in Iu, Id. cbn [fst snd] in F.
    destruct (nonzero _); [|injection F as <-; destruct H]. unfold quark_charged_Ms in F. destruct (CKM (family u) (family d)) as [V|]; [|discriminate]. cbn [rbind] in F. injection F as <-. destruct H as [H|[]]. injection H as <- <-.
    apply attractive_amplitudes; [split; reflexivity| |reflexivity|].
    + eapply told_incl; [|exact HD]. destruct Iu as (Iu & _), Id as (Id & _). intros z. cbn. rewrite !in_app_iff. intuition (subst; auto).
    + apply Forall_cons; [|apply Forall_nil]. apply sterile_attractive; [perm4|]. pose proof (pow2_ge_0 V). lra.
Qed.
Lemma baryons_nonneg n p nu e Ms : told_apart [n; p; e; nu] -> baryons_Ms = Ok Ms -> nonneg_amplitudes (baryons_interaction n p nu e) Ms.
Proof.
  intros HD E. unfold baryons_Ms in E. cbn [CKM rbind] in E. injection E as <-. apply attractive_amplitudes; [split; reflexivity|exact HD|reflexivity|].
  apply Forall_cons; [|apply Forall_nil]. apply weak_attractive; [perm4|]. nra.
Qed.

(* the templates are those of LibModel *)
Lemma same_templates thetas s ns ls qs :
  map fst (neutrino_interactions_M ls ns) = neutrino_interactions ls ns /\ map fst (lepton_interactions_M ls ns) = lepton_interactions ls ns /\
  map fst (sterile_leptons_interactions_M thetas s ns ls) = map fst (sterile_leptons_interactions (fun f => nonzero (thetas f)) s ns ls) /\
  (forall out, sterile_quark_interactions_M thetas s ns ls qs = Ok out -> exists out', sterile_quark_interactions (fun f => nonzero (thetas f)) s ns ls qs = Ok out' /\ forall t, In t (map fst out) <-> In t out').
Proof.
  assert (FM : forall (A B C : Type) (g : B -> C) (f : A -> list B) l, map g (flat_map f l) = flat_map (fun x => map g (f x)) l).
  { intros A B C g f l. induction l as [|x l IH]; [reflexivity|]. cbn. now rewrite map_app, IH. }
  assert (FE : forall (A B : Type) (f g : A -> list B) l, (forall x, f x = g x) -> flat_map f l = flat_map g l) by (intros A B f g l HE; induction l; cbn; congruence).
  split; [|split; [|split]].
  - unfold neutrino_interactions_M, neutrino_interactions. rewrite map_app, map_map, FM. cbn [fst]. f_equal. apply FE. intros l. now rewrite map_map.
  - unfold lepton_interactions_M. rewrite map_map. cbn [fst]. apply map_id.
  - unfold sterile_leptons_interactions_M, sterile_leptons_interactions. rewrite !map_app, !FM. f_equal; apply FE.
    + intros ab. unfold scattering_pair. destruct (nonzero _); [|reflexivity]. destruct (sterile_active_scattering s (fst ab) (snd ab)) as (t0 & t1). reflexivity.
    + intros l. rewrite !FM. apply FE. intros n. rewrite !map_app. f_equal.
      * unfold nc_pair. destruct (nonzero _); [|reflexivity]. destruct (sterile_NC s n l) as (t0 & t1). destruct (_ || _)%bool; reflexivity.
      * destruct (1 <? length ls)%nat; [|reflexivity]. rewrite !FM. apply FE. intros ol. unfold cc_pair. destruct (_ && _)%bool; [|reflexivity]. destruct (sterile_CC s n l ol) as (t0 & t1). reflexivity.
  - intros out E. unfold sterile_quark_interactions_M in E. cbn beta in E.
    match type of E with rbind ?m _ = _ => destruct m as [xs|] eqn:Ex; [|discriminate] end. cbn [rbind] in E.
    match type of E with rbind ?m _ = _ => destruct m as [ys|] eqn:Ey; [|discriminate] end. cbn [rbind] in E. injection E as <-.
    assert (T : forall l xs, traverse (fun qn => if nonzero (thetas (flav (snd qn))) then let* Ms := quark_neutral_Ms (thetas (flav (snd qn))) (fst qn) in Ok [(sterile_quark_neutral s (snd qn) (fst qn), Ms)] else Ok []) l = Ok xs ->
      traverse (fun qn => if nonzero (thetas (flav (snd qn))) then if ((Q3 (fst qn) =? 2) || (Q3 (fst qn) =? -1))%Z%bool then Ok [sterile_quark_neutral s (snd qn) (fst qn)] else Raise UnboundLocalError else Ok []) l = Ok (map (map fst) xs)).
    { induction l as [|(q & n) l IH]; intros zs E; cbn [traverse rbind fst snd] in *; [injection E as <-; reflexivity|].
      destruct (nonzero (thetas (flav n))).
      - unfold quark_neutral_Ms in E. destruct (Z.eqb_spec (Q3 q) (-1)) as [Eq|Nq].
        + rewrite Eq in *. cbn [rbind Z.eqb Pos.eqb orb] in *. destruct (traverse _ l) as [r|] eqn:Er; [|discriminate]. cbn [rbind] in E. injection E as <-. rewrite (IH r eq_refl). reflexivity.
        + destruct (Z.eqb_spec (Q3 q) 2) as [Eq|Nq2]; cbn [rbind orb] in *; [|discriminate]. destruct (traverse _ l) as [r|] eqn:Er; [|discriminate]. cbn [rbind] in E. injection E as <-. rewrite (IH r eq_refl). reflexivity.
      - cbn [rbind] in *. destruct (traverse _ l) as [r|] eqn:Er; [|discriminate]. cbn [rbind] in E. injection E as <-. rewrite (IH r eq_refl). reflexivity. }
    unfold sterile_quark_interactions. rewrite (T _ _ Ex). cbn [rbind]. eexists. split; [reflexivity|]. intros t. rewrite map_app, !in_app_iff, !concat_map.
    assert (U : In t (concat (map (map fst) ys)) <-> In t (flat_map (fun ud => flat_map (fun l => if nonzero (thetas (flav l)) then [sterile_quark_charged s l (fst ud) (snd ud)] else []) ls)
        (list_prod (filter (fun q => (Q3 q =? 2)%Z) qs) (filter (fun q => (Q3 q =? -1)%Z) qs)))); [|tauto].
    clear Ex T. set (uds := list_prod (filter _ qs) (filter _ qs)) in *. clearbody uds. rewrite in_flat_map, in_concat. split.
    + intros (y & Iy & H). apply in_map_iff in Iy. destruct Iy as (z & <- & Iz). destruct (traverse_in _ _ _ _ Ey Iz) as (((u & d) & l) & I & F). apply in_prod_iff in I. destruct I as (Iud & Il). cbn [fst snd] in F.
      exists (u, d). split; [exact Iud|]. apply in_flat_map. exists l. split; [exact Il|]. destruct (nonzero _); [|injection F as <-; destruct H].
      destruct (quark_charged_Ms _ u d); [|discriminate]. cbn [rbind] in F. injection F as <-. exact H.
    + intros ((u & d) & Iud & H). apply in_flat_map in H. destruct H as (l & Il & H). cbn [fst snd] in H. destruct (nonzero (thetas (flav l))) eqn:NZ; [|destruct H].
      assert (I : In ((u, d), l) (list_prod uds ls)) by (apply in_prod; assumption). clear -Ey I NZ H.
      revert ys Ey. induction (list_prod uds ls) as [|x r IH]; intros ys Ey; [destruct I|]. cbn [traverse] in Ey. destruct I as [->|I].
      * cbn [fst snd] in Ey. rewrite NZ in Ey. destruct (quark_charged_Ms _ u d) as [Ms|]; [|discriminate]. cbn [rbind] in Ey. destruct (traverse _ r) as [rr|]; [|discriminate]. cbn [rbind] in Ey. injection Ey as <-.
        eexists. split; [left; reflexivity|exact H].
      * match type of Ey with rbind ?m _ = _ => destruct m as [y0|]; [|discriminate] end. cbn [rbind] in Ey. destruct (traverse _ r) as [rr|] eqn:Er; [|discriminate]. cbn [rbind] in Ey. injection Ey as <-.
        destruct (IH I rr eq_refl) as (y & Iy & Hy). exists y. split; [now right|exact Hy].
Qed.
