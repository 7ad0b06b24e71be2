(* Widths of the three-body channels, products taken as massless. *)
From Coq Require Import Reals Lra Psatz.
From Coquelicot Require Import Coquelicot.
From Verif Require Import Base FunctionalModel CrossModel CrossProofs LibModel LibProofs Lib2Proofs ParamsModel MatrixModel KinemModel RelabelProofs LedgerProofs LedgerProps Decay4Proofs Decay4Props EnergyProofs.
Open Scope R_scope.
Local Notation length := List.length.

Definition SM_quarks : list lib := [up; down; charm; strange; top; bottom].
Definition SM_all : list lib := SM_neutrinos ++ SM_leptons ++ SM_mesons ++ SM_quarks.
Definition crew (n : lib) : list lib := n :: SM_all.

(* Specification: decays per time of one particle n at rest, as the integral of
   the reaction computes it; every product massless *)
Definition rate_of (ks : specie -> kspecie) (n : lib) (m : R) (e : list mel * list item) (x : R) : Prop :=
  exists w p ms G, number_weight ks (snd e) = Ok w /\ init_integral (fst e) (snd e) = Ok [mkIntegral p (snd e) ms] /\
                   dalitz_is m (amp_at m (place_of (lname n) (snd e)) ms) G /\ x = w / kdof (ks (sp n)) * G.
Definition width ks n m l x : Prop := total (rate_of ks n m) (events (decays_of n) l) x.

Definition sumK (ms : list mel) : R := fold_right (fun M s => match M with M4 _ K1 _ _ => K1 | M3 _ => 0 end + s) 0 ms.
Definition weakly (P : list nat -> Prop) (M : mel) : Prop := exists o K1 K2, M = M4 o K1 K2 0 /\ P o.

Lemma amp_cons m par M ms e1 e2 : amp_at m par (M :: ms) e1 e2 = amp_at m par [M] e1 e2 + amp_at m par ms e1 e2.
Proof. unfold amp_at. cbn [fold_right]. ring. Qed.
Lemma rate_value m par ms : 0 < m -> (par = 0 \/ par = 3)%nat -> Forall (weakly (fun o => perm4 o = true)) ms ->
  dalitz_is m (amp_at m par ms) (sumK ms * m ^ 5 / (12288 * PI ^ 3)).
Proof.
  intros Hm HP HF. pose proof PI_RGT_0 as HPI.
  assert (HG : exists g, (forall e1, is_RInt (amp_at m par ms e1) (m / 2 - e1) (m / 2) (g e1)) /\ is_RInt g 0 (m / 2) (sumK ms * m * (m ^ 5 / 192))).
  { induction HF as [|M ms (o & K1 & K2 & -> & HO) HF (g & IH1 & IH2)].
    - exists (fun _ => 0). split.
      + intros e1. now apply is_RInt_zero_on.
      + cbn [sumK fold_right]. rewrite !Rmult_0_l. now apply is_RInt_zero_on.
    - exists (fun u => K1 * m * inner_pairing m u (slot par o) + g u). assert (Hs : (1 <= slot par o)%nat) by (unfold slot; lia). split.
      + intros e1. eapply is_RInt_ext; [|exact (is_RInt_plus (V := R_NormedModule) _ _ _ _ _ _ (is_RInt_scal (V := R_NormedModule) _ _ _ (K1 * m) _ (pairing_int m e1 (slot par o) Hs)) (IH1 e1))].
        intros x _. rewrite amp_cons, amp_pairing by assumption. reflexivity.
      + cbn [sumK fold_right]. fold (sumK ms). replace ((K1 + sumK ms) * m * (m ^ 5 / 192)) with (K1 * m * (m ^ 5 / 192) + sumK ms * m * (m ^ 5 / 192)) by ring.
        exact (is_RInt_plus (V := R_NormedModule) _ _ _ _ _ _ (is_RInt_scal (V := R_NormedModule) _ _ _ (K1 * m) _ (inner_pairing_int m (slot par o) Hs)) IH2). }
  destruct HG as (g & H1 & H2). exists g, (sumK ms * m * (m ^ 5 / 192)). repeat split; [auto|exact H2|]. field. lra.
Qed.

(* the orders the library uses *)
Definition std_orders : list (list nat) := [[0; 1; 2; 3]; [2; 3; 0; 1]; [0; 2; 1; 3]; [0; 3; 1; 2]]%nat.
Definition proper (ms : list mel) : Prop := Forall (weakly (fun o => In o std_orders)) ms.
Definition aboard (maj : bool) (r : list item) : bool :=
  ((length r =? 3) || (length r =? 4))%nat && forallb (fun it => existsb (specie_eqb (ispecie it)) (map sp (crew (N0 maj)))) r.
Lemma aboard_drawn maj r : aboard maj r = true -> drawn (map sp (crew (N0 maj))) r /\ (length r = 3 \/ length r = 4)%nat.
Proof.
  unfold aboard. intros H. apply andb_prop in H. destruct H as [HL H]. split.
  - intros it Hi. rewrite forallb_forall in H. specialize (H it Hi). apply existsb_exists in H. destruct H as (s & Hs & E). apply specie_eqb_eq in E. now rewrite E.
  - apply orb_prop in HL. destruct HL as [E|E]; apply Nat.eqb_eq in E; auto.
Qed.
Lemma all_low p : In p SM_all -> (sid (sp p) < 27)%nat.
Proof.
  intros Hp. assert (E : forallb (fun p => sid (sp p) <? 27)%nat SM_all = true) by reflexivity.
  rewrite forallb_forall in E. specialize (E p Hp). now apply Nat.ltb_lt in E.
Qed.
Lemma all_unswapped id M p : In p SM_all -> swap id M (sp p) = sp p.
Proof. intros Hp. apply all_low in Hp. unfold swap. destruct (Nat.eqb_spec (sid (sp p)) 30); [lia|reflexivity]. Qed.
Lemma crew_swap maj id M s : In s (map sp (crew (N0 maj))) -> exists p, In p (crew (NN maj id M)) /\ swap id M s = sp p.
Proof.
  unfold crew. rewrite map_cons. intros [<-|H].
  - exists (NN maj id M). split; [now left|]. apply swap_N0.
  - apply in_map_iff in H. destruct H as (p & <- & Hp). exists p. split; [now right|]. now apply all_unswapped.
Qed.
Lemma crew_fresh maj id : (27 <= id)%nat -> forall s, In s (map sp (crew (N0 maj))) -> (sid s = 30 \/ sid s <> id)%nat.
Proof.
  intros Hid s. unfold crew. rewrite map_cons. intros [<-|H]; [left; now destruct maj|]. right. apply in_map_iff in H. destruct H as (p & <- & Hp). apply all_low in Hp. lia.
Qed.
Lemma crew_names maj id M : names_tell (crew (NN maj id M)) = true.
Proof. destruct maj; reflexivity. Qed.
Lemma crew_charged maj id M : charged_names (crew (NN maj id M)) = charged_names (crew (N0 maj)).
Proof. destruct maj; reflexivity. Qed.

Definition rcheck (maj : bool) (r : list item) : bool :=
  aboard maj r && forallb (fun o => perm4 (placed r o)) std_orders && (place_of (lname (N0 maj)) r =? 0)%nat &&
  match filter (fun it => (iside it =? -1)%Z) r with h :: _ => negb (anti h) | [] => false end.
Definition wcheck (maj : bool) (rss : list (list (list item))) (W : nat) : bool :=
  let ds := flat_map (decays_of (N0 maj)) rss in
  forallb (rcheck maj) ds && (weights (charged_names (crew (N0 maj))) ds =? W)%nat.

Lemma apply_proper f r ms : forallb (fun o => perm4 (placed r o)) std_orders = true -> proper ms ->
  exists ms', traverse (apply_order (map (relabel f) r)) ms = Ok ms' /\ Forall (weakly (fun o => perm4 o = true)) ms' /\ sumK ms' = sumK ms.
Proof.
  intros HO HP. rewrite forallb_forall in HO. induction HP as [|M ms (o & K1 & K2 & -> & Ho) HP (ms' & IH1 & IH2 & IH3)].
  - exists []. repeat split. apply Forall_nil.
  - specialize (HO o Ho). unfold placed in HO. destruct (map_order r o) as [o'|] eqn:EO; [|discriminate HO].
    assert (HB : exists a b t', o' = a :: b :: t').
    { destruct o' as [|a [|b t']]; [discriminate HO| |eauto]. unfold store_order in HO. cbn in HO. discriminate HO. }
    destruct HB as (a & b & t' & HB).
    eexists. split; [|split].
    + cbn [traverse]. unfold apply_order at 1. rewrite map_order_relabel, EO. cbn [rbind]. rewrite HB. cbn [rbind]. rewrite IH1. cbn [rbind]. reflexivity.
    + apply Forall_cons; [|exact IH2]. eexists _, _, _. split; [reflexivity|exact HO].
    + cbn [sumK fold_right]. fold (sumK ms') (sumK ms). now rewrite IH3.
Qed.
Lemma rate_lift maj id M ks m ms r : 0 < m -> sees ks (crew (NN maj id M)) -> (27 <= id)%nat -> rcheck maj r = true -> proper ms ->
  rate_of ks (NN maj id M) m (ms, map (relabel (swap id M)) r) (INR (weight (charged_names (crew (N0 maj))) r) / kdof (ks (sp (NN maj id M))) * (sumK ms * m ^ 5 / (12288 * PI ^ 3))).
Proof.
  intros Hm HS Hid HC HM. unfold rcheck in HC. apply andb_prop in HC. destruct HC as [HC HA]. apply andb_prop in HC. destruct HC as [HC HP]. apply andb_prop in HC. destruct HC as [HK HO].
  assert (HL : lname (NN maj id M) = lname (N0 maj)) by (now destruct maj).
  destruct (aboard_drawn maj r HK) as [HD HLen].
  assert (HW : number_weight ks (map (relabel (swap id M)) r) = Ok (INR (weight (charged_names (crew (N0 maj))) r))).
  { pose proof (weights_ok ks (crew (NN maj id M)) (swap id M) (map sp (crew (N0 maj))) [r] HS (crew_names maj id M) (swap_kind id M)
      (swap_identity id M _ (crew_fresh maj id Hid))) as HW.
    rewrite crew_charged in HW. cbn [map rsum] in HW. unfold weights in HW. cbn [map fold_right] in HW. rewrite Nat.add_0_r in HW.
    specialize (HW ltac:(intros q [<-|[]]; split; assumption) ltac:(intros s Hs; now apply crew_swap)).
    destruct (number_weight ks (map (relabel (swap id M)) r)) as [w|]; [|discriminate HW]. cbn [rbind] in HW. rewrite Rplus_0_r in HW. exact HW. }
  destruct (filter (fun it => (iside it =? -1)%Z) r) as [|h t] eqn:EF; [discriminate HA|]. apply negb_true_iff in HA.
  destruct (apply_proper (swap id M) r ms HO HM) as (ms' & E1 & E2 & E3).
  eexists _, (ispecie (relabel (swap id M) h)), ms', _. cbn [fst snd]. split; [exact HW|]. split; [|split].
  - unfold init_integral. rewrite filter_sides, EF. cbn [map]. replace (anti (relabel (swap id M) h)) with (anti h) by reflexivity. rewrite HA, E1. reflexivity.
  - rewrite place_relabel by apply swap_kind. rewrite HL. apply Nat.eqb_eq in HP. rewrite HP. apply rate_value; auto.
  - now rewrite E3.
Qed.

Lemma decays_relabel maj id M rs : decays_of (NN maj id M) (map (map (relabel (swap id M))) rs) = map (map (relabel (swap id M))) (decays_of (N0 maj) rs).
Proof.
  assert (HL : lname (NN maj id M) = lname (N0 maj)) by (now destruct maj).
  unfold decays_of. rewrite filter_relabel by (intros r; rewrite side_names_relabel by apply swap_kind; reflexivity).
  f_equal. apply filter_ext. intros r. unfold lone. now rewrite HL.
Qed.
Lemma total_app {A} (P : A -> R -> Prop) l l' x y : total P l x -> total P l' y -> total P (l ++ l') (x + y).
Proof.
  revert x. induction l as [|a l IH]; cbn [total app]; intros x H H'.
  - subst x. now rewrite Rplus_0_l.
  - destruct H as (u & v & H1 & H2 & ->). exists u, (v + y). split; [exact H1|]. split; [now apply IH|]. ring.
Qed.
Lemma total_one {A} (P : A -> R -> Prop) a x y : P a x -> x = y -> total P [a] y.
Proof. intros H <-. exists x, 0. split; [exact H|]. split; [reflexivity|ring]. Qed.
(* a channel whose interactions all carry the sum S of coefficients *)
Lemma width_lift maj id M ks m l rss S W : 0 < m -> sees ks (crew (NN maj id M)) -> (27 <= id)%nat ->
  map (fun i => snd (fst i)) l = map (map (map (relabel (swap id M)))) rss -> Forall (fun i => proper (snd i) /\ sumK (snd i) = S) l -> wcheck maj rss W = true ->
  width ks (NN maj id M) m l (INR W / kdof (ks (sp (NN maj id M))) * (S * m ^ 5 / (12288 * PI ^ 3))).
Proof.
  intros Hm HS Hid HR HF HC. unfold wcheck in HC. apply andb_prop in HC. destruct HC as [HC HW]. apply Nat.eqb_eq in HW. subst W. unfold width.
  revert rss HR HC. induction HF as [|[i Ms] l [HP HS'] HF IH]; intros [|rs rss] HR HC; try discriminate HR.
  - cbn. unfold Rdiv. ring.
  - cbn [map fst snd] in HR. injection HR. intros HR' HE. cbn [flat_map] in HC. rewrite forallb_app in HC. apply andb_prop in HC. destruct HC as [C1 C2].
    unfold events. cbn [flat_map fst snd]. rewrite HE, decays_relabel. rewrite map_map.
    assert (HW : forall a b, INR (weights (charged_names (crew (N0 maj))) (a ++ b)) = INR (weights (charged_names (crew (N0 maj))) a) + INR (weights (charged_names (crew (N0 maj))) b)).
    { intros a b. rewrite <- plus_INR. f_equal. unfold weights. rewrite map_app, fold_right_app. induction (map (weight (charged_names (crew (N0 maj)))) a) as [|q a' IHa]; [reflexivity|]. cbn [fold_right]. rewrite IHa. lia. }
    cbn [flat_map]. rewrite HW. unfold Rdiv. rewrite !Rmult_plus_distr_r. apply total_app; [|exact (IH rss HR' C2)].
    cbn [snd] in HP, HS'. clear HE. revert C1. induction (decays_of (N0 maj) rs) as [|r ds IHd]; intros C1; cbn [map total].
    + cbn. ring.
    + cbn [forallb] in C1. apply andb_prop in C1. destruct C1 as [Cr C1]. eexists _, _. split; [|split; [exact (IHd C1)|]].
      * exact (rate_lift maj id M ks m Ms r Hm HS Hid Cr HP).
      * unfold weights. cbn [map fold_right]. rewrite plus_INR. unfold Rdiv. rewrite HS'. ring.
Qed.
