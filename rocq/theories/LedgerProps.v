(* C142: particle numbers in the decays of sterile neutrinos. *)
From Coq Require Import Reals Lra Permutation.
From Verif Require Import Base FunctionalModel Integrate3Model CrossModel CrossProofs LibModel LibProofs Lib2Proofs KinemModel RelabelProofs LedgerProofs.
Open Scope nat_scope.
Local Notation length := List.length.

(* Specification. A sterile neutrino of any identity and mass; the particles of
   its decays. *)
Definition SM_neutrinos : list lib := [neutrino_e; neutrino_mu; neutrino_tau].
Definition SM_leptons : list lib := [electron; muon; tau].
Definition SM_mesons : list lib := [neutral_pion; charged_pion; charged_kaon; kaon_long; kaon_short; eta; charged_rho; neutral_rho; omega; eta_prime; phi].
Definition company (n : lib) : list lib := n :: SM_neutrinos ++ SM_leptons ++ SM_mesons.
Definition times_in (s : lib) (products : list lib) : nat := length (filter (fun p => String.eqb (lname p) (lname s)) products).
(* W sterile neutrinos of the reactions rs decay per event, and per event each
   species s of the products is created as often as `made` says. *)
Definition ledger (ks : specie -> kspecie) (n : lib) (rs : list (list item)) (products : list lib) (W : nat) (made : lib -> nat) : Prop :=
  rsum (map (number_weight ks) (decays_of n rs)) = Ok (INR W) /\ W <> 0 /\
  forall s, In s products -> rsum (map (number_weight ks) (creations_of n s rs)) = Ok (INR (made s)).
(* every particle is created as often as it occurs among the products *)
Definition conserved ks n rs products : Prop := exists W, ledger ks n rs products W (fun s => W * times_in s products).
Definition sum_masses (products : list lib) : Z := masses (map sp products).

Definition specie_eqb (a b : specie) : bool :=
  (sid a =? sid b) && String.eqb (sname a) (sname b) && (smass a =? smass b)%Z && Bool.eqb (majorana a) (majorana b).
Lemma specie_eqb_eq a b : specie_eqb a b = true -> a = b.
Proof.
  unfold specie_eqb. intros H. apply andb_prop in H. destruct H as [H H4]. apply andb_prop in H. destruct H as [H H3]. apply andb_prop in H. destruct H as [H1 H2].
  apply Nat.eqb_eq in H1. apply String.eqb_eq in H2. apply Z.eqb_eq in H3. apply Bool.eqb_prop in H4. destruct a, b. cbn in *. congruence.
Qed.
Definition known (maj : bool) (r : list item) : bool :=
  ((length r =? 3) || (length r =? 4)) && forallb (fun it => existsb (specie_eqb (ispecie it)) (map sp (company (N0 maj)))) r.
Lemma known_drawn maj r : known maj r = true -> drawn (map sp (company (N0 maj))) r /\ (length r = 3 \/ length r = 4).
Proof.
  unfold known. intros H. apply andb_prop in H. destruct H as [HL H]. split.
  - intros it Hi. rewrite forallb_forall in H. specialize (H it Hi). apply existsb_exists in H. destruct H as (s & Hs & E). apply specie_eqb_eq in E. now rewrite E.
  - apply orb_prop in HL. destruct HL as [E|E]; apply Nat.eqb_eq in E; auto.
Qed.
Lemma company_swap maj id M s : In s (map sp (company (N0 maj))) -> exists p, In p (company (NN maj id M)) /\ swap id M s = sp p.
Proof.
  cbn [company map In]. intros [<-|H].
  - exists (NN maj id M). split; [now left|]. destruct maj; reflexivity.
  - apply in_map_iff in H. destruct H as (p & <- & Hp). exists p. split; [now right|]. unfold swap.
    assert (E : forallb (fun p => sid (sp p) <? 27) (SM_neutrinos ++ SM_leptons ++ SM_mesons) = true) by reflexivity.
    rewrite forallb_forall in E. specialize (E p Hp). apply Nat.ltb_lt in E. destruct (Nat.eqb_spec (sid (sp p)) 30); [lia|reflexivity].
Qed.
Lemma company_fresh maj id : 27 <= id -> forall s, In s (map sp (company (N0 maj))) -> sid s = 30 \/ sid s <> id.
Proof.
  intros Hid s. cbn [company map In]. intros [<-|H]; [left; now destruct maj|]. right. apply in_map_iff in H. destruct H as (p & <- & Hp).
  assert (E : forallb (fun p => sid (sp p) <? 27) (SM_neutrinos ++ SM_leptons ++ SM_mesons) = true) by reflexivity.
  rewrite forallb_forall in E. specialize (E p Hp). apply Nat.ltb_lt in E. lia.
Qed.
Lemma company_names maj id M : names_tell (company (NN maj id M)) = true.
Proof. destruct maj; reflexivity. Qed.
Lemma company_charged maj id M : charged_names (company (NN maj id M)) = charged_names (company (N0 maj)).
Proof. destruct maj; reflexivity. Qed.

Definition checked (maj : bool) (rs : list (list item)) (products : list lib) (W : nat) (made : lib -> nat) : bool :=
  let c := charged_names (company (N0 maj)) in
  forallb (known maj) rs && (weights c (decays_of (N0 maj) rs) =? W) && negb (W =? 0) &&
  forallb (fun s => weights c (creations_of (N0 maj) s rs) =? made s) products.
Lemma ledger_lift maj id M ks rs rs0 products W made : rs = map (map (relabel (swap id M))) rs0 -> sees ks (company (NN maj id M)) -> 27 <= id ->
  checked maj rs0 products W made = true -> ledger ks (NN maj id M) rs products W made.
Proof.
  intros -> HS Hid H. unfold checked in H. apply andb_prop in H. destruct H as [H HC]. apply andb_prop in H. destruct H as [H HW]. apply andb_prop in H. destruct H as [HK HD].
  rewrite forallb_forall in HK, HC. apply Nat.eqb_eq in HD. apply negb_true_iff, Nat.eqb_neq in HW.
  assert (HL : lname (NN maj id M) = lname (N0 maj)) by (now destruct maj).
  assert (HR : forall rs', incl rs' rs0 -> rsum (map (number_weight ks) (map (map (relabel (swap id M))) rs')) = Ok (INR (weights (charged_names (company (N0 maj))) rs'))).
  { intros rs' HI. rewrite <- (company_charged maj id M). apply (weights_ok ks _ _ (map sp (company (N0 maj)))); auto.
    - apply company_names.
    - apply swap_kind.
    - apply swap_identity. now apply company_fresh.
    - intros r Hr. apply known_drawn, HK, HI, Hr.
    - intros s Hs. now apply company_swap. }
  split; [|split; [exact HW|]].
  - unfold decays_of. rewrite filter_relabel by (intros r; unfold lone; rewrite side_names_relabel by apply swap_kind; reflexivity).
    rewrite HR by (intros x Hx; apply filter_In in Hx; tauto). unfold decays_of in HD. rewrite <- HD. unfold lone. now rewrite HL.
  - intros s Hs. specialize (HC s Hs). apply Nat.eqb_eq in HC. unfold creations_of.
    rewrite filter_relabel by (intros r; unfold lone; rewrite side_names_relabel, first_name_relabel by apply swap_kind; reflexivity).
    rewrite HR by (intros x Hx; apply filter_In in Hx; tauto). unfold creations_of in HC. rewrite <- HC. unfold lone. now rewrite HL.
Qed.
Lemma ledger_ext ks n rs products W made made' : (forall s, In s products -> made s = made' s) -> ledger ks n rs products W made -> ledger ks n rs products W made'.
Proof. intros H (A & B & C). split; [exact A|]. split; [exact B|]. intros s Hs. now rewrite C, H. Qed.


(* one of a list *)
Ltac each H := cbn [In app SM_neutrinos SM_leptons SM_mesons] in H; repeat match type of H with _ \/ _ => destruct H as [<-|H] end; try contradiction.
Lemma SM_unswapped id M p : In p (SM_neutrinos ++ SM_leptons ++ SM_mesons) -> swap id M (sp p) = sp p.
Proof.
  intros Hp. unfold swap. assert (E : forallb (fun p => sid (sp p) <? 27) (SM_neutrinos ++ SM_leptons ++ SM_mesons) = true) by reflexivity.
  rewrite forallb_forall in E. specialize (E p Hp). apply Nat.ltb_lt in E. destruct (Nat.eqb_spec (sid (sp p)) 30); [lia|reflexivity].
Qed.
Lemma neutrinos_in p : In p SM_neutrinos -> In p (SM_neutrinos ++ SM_leptons ++ SM_mesons).
Proof. intros H. apply in_or_app. auto. Qed.
Lemma leptons_in p : In p SM_leptons -> In p (SM_neutrinos ++ SM_leptons ++ SM_mesons).
Proof. intros H. apply in_or_app. right. apply in_or_app. auto. Qed.
Lemma mesons_in p : In p SM_mesons -> In p (SM_neutrinos ++ SM_leptons ++ SM_mesons).
Proof. intros H. apply in_or_app. right. apply in_or_app. auto. Qed.

(* N -> three neutrinos, for every pair of flavours *)
Lemma neutrinos_ledger maj ks id M a b : In a SM_neutrinos -> In b SM_neutrinos -> 27 <= id -> (sum_masses [a; b; b] < M)%Z -> sees ks (company (NN maj id M)) ->
  ledger ks (NN maj id M) (all_reactions (scattering_pair (NN maj id M) a b)) [a; b; b] (if maj then 1 else 2) (fun s => 2 * times_in s [a; b; b]).
Proof.
  intros Ha Hb Hid HM HS. eapply (ledger_lift maj id M ks _ (all_reactions (scattering_pair (N0 maj) a b))); [|exact HS|exact Hid|].
  - assert (HC : has_N0 (fst (sterile_active_scattering (N0 maj) a b)) && has_N0 (snd (sterile_active_scattering (N0 maj) a b)) = true /\
      masses (others_of (fst (sterile_active_scattering (N0 maj) a b))) = sum_masses [a; b; b] /\ masses (others_of (snd (sterile_active_scattering (N0 maj) a b))) = sum_masses [a; b; b]).
    { each Ha; each Hb; destruct maj; vm_compute; auto. }
    destruct HC as (HC & E1 & E2). apply scattering_swap; [| |exact Hid|exact HC|now rewrite E1|now rewrite E2]; now apply SM_unswapped, neutrinos_in.
  - each Ha; each Hb; destruct maj; vm_compute; reflexivity.
Qed.
(* N -> neutrino and a pair of charged leptons *)
Lemma pair_ledger maj ks id M n l : In n SM_neutrinos -> In l SM_leptons -> 27 <= id -> (sum_masses [n; l; l] < M)%Z -> sees ks (company (NN maj id M)) ->
  ledger ks (NN maj id M) (all_reactions (nc_pair (NN maj id M) n l)) [n; l; l] (if maj then 1 else 2)
    (fun s => if String.eqb (lname s) (lname n) then 2 else (if maj then 2 else 4) * (if String.eqb (lname l) "Electron" then 2 else 1)).
Proof.
  intros Hn Hl Hid HM HS. eapply (ledger_lift maj id M ks _ (all_reactions (nc_pair (N0 maj) n l))); [|exact HS|exact Hid|].
  - assert (HC : has_N0 (fst (sterile_NC (N0 maj) n l)) && has_N0 (snd (sterile_NC (N0 maj) n l)) = true /\
      masses (others_of (fst (sterile_NC (N0 maj) n l))) = sum_masses [n; l; l] /\ masses (others_of (snd (sterile_NC (N0 maj) n l))) = sum_masses [n; l; l]).
    { each Hn; each Hl; destruct maj; vm_compute; auto. }
    destruct HC as (HC & E1 & E2). apply nc_swap; [| |exact Hid|exact HC|now rewrite E1|now rewrite E2]; apply SM_unswapped; [now apply neutrinos_in|now apply leptons_in].
  - each Hn; each Hl; destruct maj; vm_compute; reflexivity.
Qed.
(* N -> charged leptons of two families and a neutrino *)
Lemma current_ledger maj ks id M n l ol : In n SM_neutrinos -> In l SM_leptons -> In ol SM_leptons -> l <> ol -> flav n = flav ol -> 27 <= id ->
  (sum_masses [n; l; ol] < M)%Z -> sees ks (company (NN maj id M)) ->
  ledger ks (NN maj id M) (all_reactions (cc_pair (NN maj id M) n l ol)) [n; l; ol] (if maj then 1 else 2) (fun s => 2 * times_in s [n; l; ol]).
Proof.
  intros Hn Hl Ho Hd Hf Hid HM HS. eapply (ledger_lift maj id M ks _ (all_reactions (cc_pair (N0 maj) n l ol))); [|exact HS|exact Hid|].
  - assert (HC : has_N0 (fst (sterile_CC (N0 maj) n l ol)) && has_N0 (snd (sterile_CC (N0 maj) n l ol)) = true /\
      masses (others_of (fst (sterile_CC (N0 maj) n l ol))) = sum_masses [n; l; ol] /\ masses (others_of (snd (sterile_CC (N0 maj) n l ol))) = sum_masses [n; l; ol]).
    { clear -Hn Hl Ho. each Hn; each Hl; each Ho; destruct maj; vm_compute; auto. }
    destruct HC as (HC & E1 & E2). apply cc_swap; [| | |exact Hid|exact HC|now rewrite E1|now rewrite E2]; apply SM_unswapped; [now apply neutrinos_in|now apply leptons_in|now apply leptons_in].
  - clear -Hn Hl Ho Hd Hf. each Ho; each Hn; try discriminate Hf; clear Hf; each Hl; try (exfalso; now apply Hd); clear Hd; destruct maj; vm_compute; reflexivity.
Qed.
(* N -> neutrino or charged lepton and a meson *)
Lemma meson_ledger maj ks id M x m : In m SM_mesons -> In x (if (Q3 m =? 0)%Z then SM_neutrinos else SM_leptons) -> 27 <= id ->
  (sum_masses [x; m] < M)%Z -> sees ks (company (NN maj id M)) ->
  ledger ks (NN maj id M) (all_reactions (meson_pair (NN maj id M) x m)) [x; m] (if maj then 1 else 2) (fun s => 2 * times_in s [x; m]).
Proof.
  intros Hm Hx Hid HM HS. eapply (ledger_lift maj id M ks _ (all_reactions (meson_pair (N0 maj) x m))); [|exact HS|exact Hid|].
  - assert (HC : forallb (fun i => has_N0 (fst i) && (masses (others_of (fst i)) =? sum_masses [x; m])%Z) (meson_pair (N0 maj) x m) = true).
    { assert (HA : forallb (fun m => forallb (fun x => forallb (fun i => has_N0 (fst i) && (masses (others_of (fst i)) =? sum_masses [x; m])%Z) (meson_pair (N0 maj) x m))
        (SM_neutrinos ++ SM_leptons)) SM_mesons = true) by (destruct maj; vm_compute; reflexivity).
      rewrite forallb_forall in HA. specialize (HA m Hm). rewrite forallb_forall in HA. apply HA, in_or_app. destruct (Q3 m =? 0)%Z; auto. }
    assert (HX : In x (SM_neutrinos ++ SM_leptons ++ SM_mesons)) by (destruct (Q3 m =? 0)%Z; [now apply neutrinos_in|now apply leptons_in]).
    rewrite forallb_forall in HC. apply meson_swap; [now apply SM_unswapped|now apply SM_unswapped, mesons_in|exact Hid| |].
    + apply forallb_forall. intros i Hi. apply HC in Hi. now apply andb_prop in Hi.
    + intros i Hi. apply HC in Hi. apply andb_prop in Hi. destruct Hi as [_ E]. apply Z.eqb_eq in E. now rewrite E.
  - assert (HA : forallb (fun m => forallb (fun x => checked maj (all_reactions (meson_pair (N0 maj) x m)) [x; m] (if maj then 1 else 2) (fun s => 2 * times_in s [x; m]))
        (SM_neutrinos ++ SM_leptons)) SM_mesons = true) by (destruct maj; vm_compute; reflexivity).
    rewrite forallb_forall in HA. specialize (HA m Hm). rewrite forallb_forall in HA. apply HA, in_or_app. destruct (Q3 m =? 0)%Z; auto.
Qed.

(* C142. The interactions of one decay channel of a sterile neutrino n, with the
   products: sterile_leptons_interactions and sterile_hadrons_interactions append
   these lists (C126, C140, C141). *)
Inductive channel (n : lib) : list inter -> list lib -> Prop :=
| three_neutrinos a b : In a SM_neutrinos -> In b SM_neutrinos -> channel n (scattering_pair n a b) [a; b; b]
| neutral_current v l : In v SM_neutrinos -> In l SM_leptons -> channel n (nc_pair n v l) [v; l; l]
| charged_current v l ol : In v SM_neutrinos -> In l SM_leptons -> In ol SM_leptons -> l <> ol -> flav v = flav ol -> channel n (cc_pair n v l ol) [v; l; ol]
| neutral_meson v m : In v SM_neutrinos -> In m SM_mesons -> Q3 m = 0%Z -> channel n (map plain (sterile_neutral_meson n v m)) [v; m]
| charged_meson l m : In l SM_leptons -> In m SM_mesons -> Q3 m <> 0%Z -> channel n (map plain (sterile_charged_meson n l m)) [l; m].
Lemma conserved_of ks n rs products W made : ledger ks n rs products W made -> (forall s, In s products -> made s = W * times_in s products) -> conserved ks n rs products.
Proof. intros H E. exists W. now apply (ledger_ext _ _ _ _ _ made). Qed.

(* A Dirac sterile neutrino: every product is created as often as it should, *)
Theorem C142_dirac : forall ks id M l products, let n := dirac_sterile_neutrino id M in
  channel n l products -> (count_occ string_dec (map lname products) "Electron"%string <= 1) -> 27 <= id -> (sum_masses products < M)%Z -> sees ks (company n) ->
  conserved ks n (all_reactions l) products.
Proof.
  intros ks id M l products n HC HE Hid HM HS. change n with (NN false id M) in *.
  destruct HC as [a b Ha Hb|v l Hv Hl|v l ol Hv Hl Ho Hd Hf|v m Hv Hm HQ|l m Hl Hm HQ].
  - exact (conserved_of _ _ _ _ _ _ (neutrinos_ledger false ks id M a b Ha Hb Hid HM HS) ltac:(reflexivity)).
  - refine (conserved_of _ _ _ _ _ _ (pair_ledger false ks id M v l Hv Hl Hid HM HS) _).
    clear -Hv Hl HE. intros s Hs. each Hl; [exfalso; each Hv; vm_compute in HE; lia| |]; each Hv; cbn [In] in Hs; repeat match type of Hs with _ \/ _ => destruct Hs as [<-|Hs] end; try contradiction; reflexivity.
  - exact (conserved_of _ _ _ _ _ _ (current_ledger false ks id M v l ol Hv Hl Ho Hd Hf Hid HM HS) ltac:(reflexivity)).
  - pose proof (meson_ledger false ks id M v m Hm) as HL. unfold meson_pair in HL. rewrite HQ in HL.
    exact (conserved_of _ _ _ _ _ _ (HL Hv Hid HM HS) ltac:(reflexivity)).
  - pose proof (meson_ledger false ks id M l m Hm) as HL. unfold meson_pair in HL. destruct (Z.eqb_spec (Q3 m) 0) as [E|_]; [contradiction|].
    exact (conserved_of _ _ _ _ _ _ (HL Hl Hid HM HS) ltac:(reflexivity)).
Qed.
Print Assumptions C142_dirac.
(* except the electrons and positrons of a neutral current: twice as often *)
Theorem C142_electrons_refuted : forall ks id M v, let n := dirac_sterile_neutrino id M in
  In v SM_neutrinos -> 27 <= id -> (sum_masses [v; electron; electron] < M)%Z -> sees ks (company n) ->
  ledger ks n (all_reactions (nc_pair n v electron)) [v; electron; electron] 2 (fun s => if String.eqb (lname s) "Electron" then 2 * (2 * 2) else 2 * 1).
Proof.
  intros ks id M v n Hv Hid HM HS. change n with (NN false id M) in *.
  refine (ledger_ext _ _ _ _ _ _ _ _ (pair_ledger false ks id M v electron Hv ltac:(now left) Hid HM HS)).
  intros s Hs. each Hv; cbn [In] in Hs; repeat match type of Hs with _ \/ _ => destruct Hs as [<-|Hs] end; try contradiction; reflexivity.
Qed.
Print Assumptions C142_electrons_refuted.
(* A Majorana sterile neutrino: half as many decay as their products need; only
   the muons and taus of neutral currents are in balance. *)
Theorem C142_majorana_refuted : forall ks id M l products, let n := sterile_neutrino id M in
  channel n l products -> 27 <= id -> (sum_masses products < M)%Z -> sees ks (company n) ->
  ledger ks n (all_reactions l) products 1
    (fun s => if ((count_occ string_dec (map lname products) (lname s) =? 2) && (String.eqb (lname s) "Muon" || String.eqb (lname s) "Tau"))%bool then 1 * 2 else 2 * times_in s products).
Proof.
  intros ks id M l products n HC Hid HM HS. change n with (NN true id M) in *.
  destruct HC as [a b Ha Hb|v l Hv Hl|v l ol Hv Hl Ho Hd Hf|v m Hv Hm HQ|l m Hl Hm HQ].
  - refine (ledger_ext _ _ _ _ _ _ _ _ (neutrinos_ledger true ks id M a b Ha Hb Hid HM HS)).
    clear -Ha Hb. intros s Hs. each Ha; each Hb; cbn [In] in Hs; repeat match type of Hs with _ \/ _ => destruct Hs as [<-|Hs] end; try contradiction; reflexivity.
  - refine (ledger_ext _ _ _ _ _ _ _ _ (pair_ledger true ks id M v l Hv Hl Hid HM HS)).
    clear -Hv Hl. intros s Hs. each Hl; each Hv; cbn [In] in Hs; repeat match type of Hs with _ \/ _ => destruct Hs as [<-|Hs] end; try contradiction; reflexivity.
  - refine (ledger_ext _ _ _ _ _ _ _ _ (current_ledger true ks id M v l ol Hv Hl Ho Hd Hf Hid HM HS)).
    clear -Hv Hl Ho Hd. intros s Hs. each Hl; each Ho; try (exfalso; now apply Hd); each Hv; cbn [In] in Hs; repeat match type of Hs with _ \/ _ => destruct Hs as [<-|Hs] end; try contradiction; reflexivity.
  - pose proof (meson_ledger true ks id M v m Hm) as HL. unfold meson_pair in HL. rewrite HQ in HL.
    refine (ledger_ext _ _ _ _ _ _ _ _ (HL Hv Hid HM HS)).
    clear -Hv Hm. intros s Hs. each Hm; each Hv; cbn [In] in Hs; repeat match type of Hs with _ \/ _ => destruct Hs as [<-|Hs] end; try contradiction; reflexivity.
  - pose proof (meson_ledger true ks id M l m Hm) as HL. unfold meson_pair in HL. destruct (Z.eqb_spec (Q3 m) 0) as [E|_]; [contradiction|].
    refine (ledger_ext _ _ _ _ _ _ _ _ (HL Hl Hid HM HS)).
    clear -Hl Hm. intros s Hs. each Hm; each Hl; cbn [In] in Hs; repeat match type of Hs with _ \/ _ => destruct Hs as [<-|Hs] end; try contradiction; reflexivity.
Qed.
Print Assumptions C142_majorana_refuted.

Definition ex_ks (s : specie) : kspecie :=
  mkK (sid s) (sname s) 0 0 [] 0 (majorana s)
    (match find (fun p => sid (sp p) =? sid s) (SM_neutrinos ++ SM_leptons ++ SM_mesons) with Some p => Some (IZR (Q3 p) / 3)%R | None => Some 0%R end)
    false false 0 [] EmptyString 4 0 0.
Lemma ex_sees n : In n [dirac_sterile_neutrino 40 (10 ^ 9); sterile_neutrino 40 (10 ^ 9)]%Z -> sees ex_ks (company n).
Proof.
  intros Hn p Hp. assert (HD : (0 < 4)%R) by lra. cbn [company In] in Hp. destruct Hp as [<-|Hp].
  - cbn [In] in Hn. destruct Hn as [<-|[<-|[]]]; cbn; repeat split; try exact HD; f_equal; lra.
  - each Hp; repeat split; exact HD.
Qed.
Lemma not_conserved ks n rs products W made s : ledger ks n rs products W made -> In s products -> made s <> W * times_in s products -> ~ conserved ks n rs products.
Proof.
  intros (A & _ & C) Hs HN (W' & A' & _ & C'). rewrite A in A'. injection A' as E. apply INR_eq in E. subst W'.
  specialize (C' s Hs). rewrite (C s Hs) in C'. injection C' as E. apply INR_eq in E. contradiction.
Qed.
(* the general statement fails for both kinds *)
Theorem C142_refuted : exists ks id M,
  sees ks (company (dirac_sterile_neutrino id M)) /\ sees ks (company (sterile_neutrino id M)) /\
  (let n := dirac_sterile_neutrino id M in ~ conserved ks n (all_reactions (nc_pair n neutrino_e electron)) [neutrino_e; electron; electron]) /\
  (let n := sterile_neutrino id M in ~ conserved ks n (all_reactions (scattering_pair n neutrino_e neutrino_mu)) [neutrino_e; neutrino_mu; neutrino_mu]).
Proof.
  exists ex_ks, 40, (10 ^ 9)%Z. assert (S1 := ex_sees (dirac_sterile_neutrino 40 (10 ^ 9)) ltac:(now left)). assert (S2 := ex_sees (sterile_neutrino 40 (10 ^ 9)) ltac:(right; now left)).
  split; [exact S1|]. split; [exact S2|]. split.
  - intros n. refine (not_conserved _ _ _ _ _ _ electron (C142_electrons_refuted ex_ks 40 (10 ^ 9)%Z neutrino_e _ _ _ S1) _ _); [now left|lia|vm_compute; reflexivity|right; now left|vm_compute; discriminate].
  - intros n. refine (not_conserved _ _ _ _ _ _ neutrino_e (C142_majorana_refuted ex_ks 40 (10 ^ 9)%Z (scattering_pair n neutrino_e neutrino_mu) _ _ _ _ S2) _ _);
      [apply three_neutrinos; cbn; auto|lia|vm_compute; reflexivity|now left|vm_compute; discriminate].
Qed.
Print Assumptions C142_refuted.
Example C142_example : let n := dirac_sterile_neutrino 40 (10 ^ 9)%Z in
  sees ex_ks (company n) /\ channel n (scattering_pair n neutrino_e neutrino_mu) [neutrino_e; neutrino_mu; neutrino_mu] /\ (sum_masses [neutrino_e; neutrino_mu; neutrino_mu] < 10 ^ 9)%Z /\
  times_in neutrino_mu [neutrino_e; neutrino_mu; neutrino_mu] = 2 /\ length (decays_of n (all_reactions (scattering_pair n neutrino_e neutrino_mu))) = 1.
Proof.
  intros n. split; [apply ex_sees; now left|]. split; [apply three_neutrinos; cbn; auto|]. vm_compute. auto.
Qed.
