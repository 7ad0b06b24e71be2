(* C147: the decays of the muon and of the tau. *)
From Coq Require Import Reals Lra Psatz.
From Coquelicot Require Import Coquelicot.
From Verif Require Import Base FunctionalModel CrossModel CrossProofs LibModel LibProofs Lib2Proofs ParamsModel MatrixModel KinemModel WidthModel WidthProofs RelabelProofs LedgerProofs LedgerProps Decay4Proofs Decay4Props EnergyProofs ChannelProofs LeptonProofs.
Open Scope R_scope.
Local Notation length := List.length.

(* the integrals lepton_interactions builds *)
Definition lepton_integrals (leptons neutrinos : list lib) : list (inter * list mel) :=
  map (fun i => (LibModel.plain (fst i), snd i)) (lepton_interactions_M leptons neutrinos).
(* Specification: a charged lepton decays into each lighter one, with the
   neutrinos of both, at the rate of muon decay *)
Definition has_neutrino (l : lib) (neutrinos : list lib) : bool := existsb (fun n => flav_eqb (flav n) (flav l)) neutrinos.
Definition lighter (p : lib) (leptons neutrinos : list lib) : list lib :=
  filter (fun l => (smass (sp l) <? smass (sp p))%Z && has_neutrino l neutrinos && has_neutrino p neutrinos) leptons.
Definition muon_rate (m : R) : R := G_Fermi ^ 2 * m ^ 5 / (192 * PI ^ 3).

Definition in_range (leptons neutrinos : list lib) : Prop :=
  NoDup leptons /\ incl leptons SM_leptons /\ NoDup neutrinos /\ incl neutrinos SM_neutrinos.
Definition ranges : list (list lib * list lib) := list_prod (arrangements electron muon tau) (arrangements neutrino_e neutrino_mu neutrino_tau).
Lemma in_ranges ls ns : in_range ls ns -> In (ls, ns) ranges.
Proof. intros (N1 & I1 & N2 & I2). apply in_prod; now apply arrangements_all. Qed.
Definition decs (p : lib) (ls ns : list lib) : list (list item) := flat_map (fun i => decays_of p (snd (fst i))) (lepton_integrals ls ns).
Definition check_lepton (p : lib) (x : list lib * list lib) : bool :=
  let (ls, ns) := x in let ds := flat_map (decays_of p) (map reactions_of (lepton_interactions ls ns)) in
  if existsb (fun q => String.eqb (lname q) (lname p)) ls then
    forallb (pcheck p) ds && (weights (charged_names SM_all) ds =? 2 * length (lighter p ls ns))%nat
  else true.
Lemma check_all : forallb (fun p => forallb (check_lepton p) ranges) SM_leptons = true.
Proof. vm_compute. reflexivity. Qed.
Lemma decs_eq p ls ns : decs p ls ns = flat_map (decays_of p) (map reactions_of (lepton_interactions ls ns)).
Proof.
  unfold decs, lepton_integrals, lepton_interactions_M. rewrite map_map. cbn [fst snd]. rewrite !flat_map_concat_map, !map_map. reflexivity.
Qed.
Theorem C147_widths : forall ks ls ns p, in_range ls ns -> In p ls -> sees ks SM_all -> kdof (ks (sp p)) = IZR (ldof p) ->
  width ks p (mass p) (lepton_integrals ls ns) (INR (length (lighter p ls ns)) * muon_rate (mass p)).
Proof.
  intros ks ls ns p HR Hp HS HD. pose proof PI_RGT_0 as HPI.
  assert (Il : In p SM_leptons) by (destruct HR as (_ & I & _); now apply I).
  pose proof check_all as HC. rewrite forallb_forall in HC. specialize (HC p Il). rewrite forallb_forall in HC. specialize (HC _ (in_ranges ls ns HR)).
  unfold check_lepton in HC. assert (HE : existsb (fun q => String.eqb (lname q) (lname p)) ls = true) by (apply existsb_exists; exists p; split; [exact Hp|apply String.eqb_refl]).
  rewrite HE in HC. apply andb_prop in HC. destruct HC as [C1 C2]. apply Nat.eqb_eq in C2. rewrite <- decs_eq in C1, C2.
  assert (Hm : 0 < mass p).
  { unfold mass. apply Rmult_lt_0_compat; [|unfold eV; apply Rinv_0_lt_compat, pow_lt; lra]. clear -Il. apply IZR_lt. each Il; reflexivity. }
  assert (HL : ldof p = 4%Z) by (clear -Il; each Il; reflexivity).
  assert (HF : Forall (fun i => proper (snd i) /\ sumK (snd i) = 128 * G_Fermi ^ 2) (lepton_integrals ls ns)).
  { apply Forall_forall. intros i Hi. unfold lepton_integrals, lepton_interactions_M in Hi. rewrite map_map in Hi. apply in_map_iff in Hi. destruct Hi as (t & <- & _). cbn [fst snd]. split.
    - repeat (apply Forall_cons; [eexists _, _, _; split; [reflexivity|cbn; tauto]|]). apply Forall_nil.
    - cbn. ring. }
  pose proof (width_plain ks p (mass p) (128 * G_Fermi ^ 2) (lepton_integrals ls ns) _ Hm HS HF C1 C2) as HW.
  match type of HW with width _ _ _ _ ?x => match goal with |- width _ _ _ _ ?y => replace y with x; [exact HW|] end end.
  rewrite HD, HL, mult_INR. unfold muon_rate. cbn [INR]. field. lra.
Qed.
Print Assumptions C147_widths.
(* as many leptons and neutrinos appear as decay *)
Definition creates (p s : lib) (ls ns : list lib) : list (list item) := flat_map (fun i => creations_of p s (snd (fst i))) (lepton_integrals ls ns).
Definition check_products (p : lib) (x : list lib * list lib) : bool :=
  let (ls, ns) := x in let rs := map reactions_of (lepton_interactions ls ns) in
  forallb (fun l => let cs := flat_map (creations_of p l) rs in
     forallb (fun r => ashore r) cs && (weights (charged_names SM_all) cs =? (if existsb (fun q => String.eqb (lname q) (lname l)) (lighter p ls ns) then 2 else 0))%nat) ls &&
  forallb (fun n => let cs := flat_map (creations_of p n) rs in
     forallb (fun r => ashore r) cs && (weights (charged_names SM_all) cs =? 2 * (if flav_eqb (flav n) (flav p) then length (lighter p ls ns) else length (filter (fun l => flav_eqb (flav l) (flav n)) (lighter p ls ns))))%nat) ns.
Lemma check_products_all : forallb (fun p => forallb (fun x => if existsb (fun q => String.eqb (lname q) (lname p)) (fst x) then check_products p x else true) ranges) SM_leptons = true.
Proof. vm_compute. reflexivity. Qed.
Lemma rsum_weights ks rs : sees ks SM_all -> forallb ashore rs = true -> rsum (map (number_weight ks) rs) = Ok (INR (weights (charged_names SM_all) rs)).
Proof.
  intros HS. induction rs as [|r rs IH]; intros H; [reflexivity|]. cbn [forallb] in H. apply andb_prop in H. destruct H as [H1 H2]. destruct (ashore_libs r H1) as [HL Hn].
  cbn [map rsum]. rewrite (weight_ok ks SM_all r HS ltac:(vm_compute; reflexivity) HL Hn). cbn [rbind]. rewrite (IH H2). cbn [rbind]. f_equal. rewrite <- plus_INR. reflexivity.
Qed.
Lemma creates_eq p s ls ns : creates p s ls ns = flat_map (creations_of p s) (map reactions_of (lepton_interactions ls ns)).
Proof. unfold creates, lepton_integrals, lepton_interactions_M. rewrite map_map. cbn [fst snd]. rewrite !flat_map_concat_map, !map_map. reflexivity. Qed.
Theorem C147_balance : forall ks ls ns p, in_range ls ns -> In p ls -> sees ks SM_all ->
  rsum (map (number_weight ks) (decs p ls ns)) = Ok (2 * INR (length (lighter p ls ns))) /\
  (forall l, In l ls -> rsum (map (number_weight ks) (creates p l ls ns)) = Ok (if in_dec string_dec (lname l) (map lname (lighter p ls ns)) then 2 else 0)) /\
  (forall n, In n ns -> flav n = flav p -> rsum (map (number_weight ks) (creates p n ls ns)) = Ok (2 * INR (length (lighter p ls ns)))) /\
  (forall n, In n ns -> flav n <> flav p -> rsum (map (number_weight ks) (creates p n ls ns)) = Ok (2 * INR (length (filter (fun l => flav_eqb (flav l) (flav n)) (lighter p ls ns))))).
Proof.
  intros ks ls ns p HR Hp HS. assert (Il : In p SM_leptons) by (destruct HR as (_ & I & _); now apply I).
  assert (HE : existsb (fun q => String.eqb (lname q) (lname p)) ls = true) by (apply existsb_exists; exists p; split; [exact Hp|apply String.eqb_refl]).
  pose proof check_all as HC. rewrite forallb_forall in HC. specialize (HC p Il). rewrite forallb_forall in HC. specialize (HC _ (in_ranges ls ns HR)).
  unfold check_lepton in HC. rewrite HE in HC. apply andb_prop in HC. destruct HC as [C1 C2]. apply Nat.eqb_eq in C2. rewrite <- decs_eq in C1, C2.
  pose proof check_products_all as HB. rewrite forallb_forall in HB. specialize (HB p Il). rewrite forallb_forall in HB. specialize (HB _ (in_ranges ls ns HR)).
  cbn [fst] in HB. rewrite HE in HB. unfold check_products in HB. apply andb_prop in HB. destruct HB as [B1 B2]. rewrite forallb_forall in B1, B2.
  assert (HI : INR 2 = 2) by (cbn; ring).
  split; [|split; [|split]].
  - rewrite rsum_weights; [rewrite C2, mult_INR, HI; reflexivity|exact HS|]. rewrite forallb_forall in C1 |- *. intros r Hr. specialize (C1 r Hr). unfold pcheck in C1.
    apply andb_prop in C1. destruct C1 as [C1 _]. apply andb_prop in C1. destruct C1 as [C1 _]. apply andb_prop in C1. now destruct C1.
  - intros l Hl. specialize (B1 l Hl). cbv beta zeta in B1. rewrite <- creates_eq in B1. apply andb_prop in B1. destruct B1 as [B B']. apply Nat.eqb_eq in B'.
    rewrite (rsum_weights _ _ HS B), B'. f_equal. clear HE.
    destruct (in_dec string_dec (lname l) (map lname (lighter p ls ns))) as [D|D].
    + apply in_map_iff in D. destruct D as (q & E & Hq). replace (existsb _ _) with true; [exact HI|]. symmetry. apply existsb_exists. exists q. split; [exact Hq|]. now rewrite E, String.eqb_refl.
    + destruct (existsb _ _) eqn:X; [|reflexivity]. exfalso. apply D. apply existsb_exists in X. destruct X as (q & Hq & E). apply String.eqb_eq in E. rewrite <- E. now apply in_map.
  - intros n Hn Hf. specialize (B2 n Hn). cbv beta zeta in B2. rewrite <- creates_eq in B2. apply andb_prop in B2. destruct B2 as [B B']. apply Nat.eqb_eq in B'.
    rewrite (rsum_weights _ _ HS B), B', Hf. replace (flav_eqb (flav p) (flav p)) with true by (clear -Il; each Il; reflexivity). now rewrite mult_INR, HI.
  - intros n Hn Hf. specialize (B2 n Hn). cbv beta zeta in B2. rewrite <- creates_eq in B2. apply andb_prop in B2. destruct B2 as [B B']. apply Nat.eqb_eq in B'.
    rewrite (rsum_weights _ _ HS B), B'. assert (In' : In n SM_neutrinos) by (destruct HR as (_ & _ & _ & I); now apply I).
    replace (flav_eqb (flav n) (flav p)) with false; [now rewrite mult_INR, HI|]. clear -Il In' Hf. each Il; each In'; first [reflexivity|exfalso; now apply Hf].
Qed.
Print Assumptions C147_balance.

(* the rates are those of the lifetimes of the library: the muon decays only this
   way, the tau into an electron in 17.8 per cent of the cases *)
Theorem C147_lifetimes : exists tmu ttau, lifetime muon = Ok tmu /\ lifetime tau = Ok ttau /\
  Rabs (muon_rate (mass muon) * tmu - 1) < 1 / 100 /\ Rabs (muon_rate (mass tau) * ttau - 178 / 1000) < 178 / 1000 / 100.
Proof.
  do 2 eexists. split; [reflexivity|]. split; [reflexivity|]. pose proof PI_bounds as HP.
  assert (HC : 31 < PI ^ 3 < 31007 / 1000) by (cbn [pow]; split; nra).
  assert (G : forall m t x, 99 / 100 * x * (31007 / 1000) < G_Fermi ^ 2 * m ^ 5 * t / 192 < 101 / 100 * x * 31 -> 0 < x -> Rabs (muon_rate m * t - x) < x / 100).
  { intros m t x [H1 H2] Hx. unfold muon_rate. replace (G_Fermi ^ 2 * m ^ 5 / (192 * PI ^ 3) * t) with (G_Fermi ^ 2 * m ^ 5 * t / 192 / PI ^ 3) by (field; lra).
    set (N := G_Fermi ^ 2 * m ^ 5 * t / 192) in *. assert (B : 99 / 100 * x < N / PI ^ 3 < 101 / 100 * x).
    { clearbody N. generalize dependent (PI ^ 3). intros P HC. split; [apply (Rlt_div_r _ _ P); [lra|nra]|apply (Rlt_div_l _ _ P); [lra|nra]]. }
    apply Rabs_def1; lra. }
  split; apply G; try lra; unfold G_Fermi, mass, second; cbn [smass sp muon tau]; unfold MeV, eV; split; lra.
Qed.
Print Assumptions C147_lifetimes.
Example C147_example : in_range [muon; electron] [neutrino_e; neutrino_mu] /\ lighter muon [muon; electron] [neutrino_e; neutrino_mu] = [electron] /\
  length (decs muon [muon; electron] [neutrino_e; neutrino_mu]) = 1%nat.
Proof.
  split; [|split; reflexivity]. split; [repeat (constructor; [cbn; intuition discriminate|]); constructor|]. split; [intros x Hx; cbn in *; intuition|].
  split; [repeat (constructor; [cbn; intuition discriminate|]); constructor|intros x Hx; cbn in *; intuition].
Qed.
(* C117 for the scattering of charged leptons (a method of the library that
   lepton_interactions does not call): every additive number is conserved *)
Theorem C117_lepton_scattering : forall w l1 l2, balanced w (leptons_leptons_NC l1 l2) /\ flags_fit (leptons_leptons_NC l1 l2).
Proof. intros w l1 l2. split; [unfold balanced; reflexivity|unfold flags_fit, flags_ok; cbn; auto]. Qed.
Print Assumptions C117_lepton_scattering.
