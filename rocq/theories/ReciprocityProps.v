(* C151: every event of the scatterings of leptons and neutrinos is accounted for
   once in the equation of each of its participants, with the same rate. *)
From Coq Require Import Reals Lra Permutation ZArith.
From Verif Require Import Base FunctionalModel FunctionalProofs CrossModel CrossProofs CrossProofs2 CrossProofs3 CrossProofs4 ParamsModel LibModel LibProofs Lib2Proofs Lib3Proofs MatrixModel Matrix2Proofs LedgerProofs LedgerProps ShapeProofs TermProofs WeakTableProofs WeakTableProps ReciprocityProofs.
Open Scope R_scope.
Local Notation length := List.length.

(* what one event changes the number of the first particle of an integral by: the
   weight of its integral, the amplitude and the collision functional; x are the
   occupations at the places, E the statistics *)
Definition legs (E : specie -> R) (o : integral) : list leg := map (fun it => mkLeg (iside it) (E (ispecie it))) (ireaction o).
Definition event_rate (ks : specie -> KinemModel.kspecie) (E : specie -> R) (o : integral) (x : nat -> R) (p : nat -> vec4) : result R :=
  let* w := number_weight ks (ireaction o) in let* v := functional Full (legs E o) (map x four) in Ok (w * event_amplitude o p * v).

(* an event that can happen: energies positive, masses right, energy and momentum
   conserved *)
Definition energy (u : vec4) : R := let '(e, _, _, _) := u in e.
Definition along_x (u : vec4) : R := let '(_, x, _, _) := u in x.
Definition along_y (u : vec4) : R := let '(_, _, y, _) := u in y.
Definition along_z (u : vec4) : R := let '(_, _, _, z) := u in z.
Definition possible (o : integral) (p : nat -> vec4) : Prop :=
  (forall j, (j < 4)%nat -> 0 < energy (p j) /\ dot (p j) (p j) = mass_at o j ^ 2) /\
  forall c, In c [energy; along_x; along_y; along_z] ->
    IZR (side_at o 0) * c (p 0%nat) + IZR (side_at o 1) * c (p 1%nat) + IZR (side_at o 2) * c (p 2%nat) + IZR (side_at o 3) * c (p 3%nat) = 0.
(* the integral o' is about the events of o, with the particle at place k first *)
Definition turns (q : list nat) (o : integral) (k : nat) (o' : integral) : Prop :=
  Permutation q four /\ moved q 0 = k /\
    forall j, (j < 4)%nat -> species_at o' j = species_at o (moved q j) /\ side_at o' j = (- side_at o k * side_at o (moved q j))%Z.
Lemma seen_turns q o k o' : seen_through q o k o' -> turns q o k o'.
Proof. intros (A & B & C & _). repeat split; auto; apply C; assumption. Qed.
(* the integrals of the participants of o can be found, and what the possible
   events change the energy of all the participants by adds up to nothing *)
Definition balanced (ks : specie -> KinemModel.kspecie) (E : specie -> R) (out : list integral) (o : integral) : Prop :=
  exists (os : nat -> integral) (qs : nat -> list nat), (forall k, (k < 4)%nat -> In (os k) out /\ turns (qs k) o k (os k)) /\
  forall x p v, (forall j, 0 <= x j) -> possible o p ->
    (forall k, (k < 4)%nat -> event_rate ks E (os k) (fun j => x (moved (qs k) j)) (fun j => p (moved (qs k) j)) = Ok (v k)) ->
    energy (p 0%nat) * v 0%nat + energy (p 1%nat) * v 1%nat + energy (p 2%nat) * v 2%nat + energy (p 3%nat) * v 3%nat = 0.

(* ---------- the functional, turned ---------- *)
Definition leg_at (E : specie -> R) (o : integral) (j : nat) : leg := mkLeg (side_at o j) (match species_at o j with Some s => E s | None => 0 end).
Lemma legs_places E o (x : nat -> R) : length (ireaction o) = 4%nat -> combine (legs E o) (map x four) = map (fun j => (leg_at E o j, x j)) four.
Proof.
  intros H. unfold legs, leg_at, side_at, species_at. destruct (ireaction o) as [|a [|b [|c [|d [|]]]]]; try discriminate. reflexivity.
Qed.
Lemma full_places E o (x : nat -> R) : length (ireaction o) = 4%nat -> side_at o 0 = (-1)%Z -> (forall j, 0 <= x j) ->
  functional Full (legs E o) (map x four) = Ok (gain (map (fun j => (leg_at E o j, x j)) four) - loss (map (fun j => (leg_at E o j, x j)) four)).
Proof.
  intros H4 Hs Hx. rewrite <- (legs_places E o x H4). unfold legs, side_at in *. destruct (ireaction o) as [|a [|b [|c [|d [|]]]]]; try discriminate. cbn [nth_error] in Hs. cbn [map four].
  apply full_value; [reflexivity| |exact Hs]. unfold nonneg. repeat (apply Forall_cons; [apply Hx|]). apply Forall_nil.
Qed.
Lemma prod_perm g a b : Permutation a b -> prod g a = prod g b.
Proof. induction 1; cbn [prod]; [reflexivity|now f_equal|ring|congruence]. Qed.
Lemma moved_all q : Permutation q four -> map (moved q) four = q.
Proof. intros P. pose proof (Permutation_length P) as L. destruct q as [|a [|b [|c [|d [|]]]]]; try discriminate. reflexivity. Qed.
Lemma prod_map_ext {A} g (f h : A -> leg * R) l : (forall j, In j l -> g (f j) = g (h j)) -> prod g (map f l) = prod g (map h l).
Proof. induction l as [|j l IH]; intros H; [reflexivity|]. cbn [map prod]. rewrite (H j (or_introl eq_refl)), IH; [reflexivity|]. intros; apply H; now right. Qed.
Lemma side_pm o : length (ireaction o) = 4%nat -> (forall it, In it (ireaction o) -> iside it = (-1)%Z \/ iside it = 1%Z) -> forall j, (j < 4)%nat -> side_at o j = (-1)%Z \/ side_at o j = 1%Z.
Proof.
  intros H4 H j Hj. unfold side_at. destruct (nth_error (ireaction o) j) as [it|] eqn:E; [apply H; now apply nth_error_In in E|]. apply nth_error_None in E. lia.
Qed.
Lemma mirrored E o (x : nat -> R) own l : (forall j, In j l -> side_at o j = (-1)%Z \/ side_at o j = 1%Z) -> own = 1%Z \/ own = (-1)%Z ->
  prod (factor own) (map (fun j => (mkLeg (- (1) * side_at o j) (FunctionalModel.eta (leg_at E o j)), x j)) l) = prod (factor (- own)) (map (fun j => (leg_at E o j, x j)) l).
Proof.
  intros H Ho. induction l as [|j l IH]; [reflexivity|]. cbn [map prod]. rewrite IH by (intros; apply H; now right). f_equal. unfold factor, leg_at. cbn [fst snd side FunctionalModel.eta].
  destruct (H j (or_introl eq_refl)) as [-> | ->], Ho as [-> | ->]; reflexivity.
Qed.
Lemma turned_functional E o o' k q (x : nat -> R) : turns q o k o' -> length (ireaction o) = 4%nat -> length (ireaction o') = 4%nat -> side_at o 0 = (-1)%Z -> side_at o' 0 = (-1)%Z ->
  (forall it, In it (ireaction o) -> iside it = (-1)%Z \/ iside it = 1%Z) -> (k < 4)%nat -> (forall j, 0 <= x j) ->
  exists v, functional Full (legs E o) (map x four) = Ok v /\ functional Full (legs E o') (map (fun j => x (moved q j)) four) = Ok (- IZR (side_at o k) * v).
Proof.
  intros (P & Hk & HS) H4 H4' H0 H0' Hpm K Hx. eexists. split; [now apply full_places|]. rewrite full_places; auto. f_equal.
  assert (HM : forall own, prod (factor own) (map (fun j => (leg_at E o' j, x (moved q j))) four) =
    prod (factor own) (map (fun j => (mkLeg (- side_at o k * side_at o j) (FunctionalModel.eta (leg_at E o j)), x j)) four)).
  { intros own. set (h := fun j => (mkLeg (- side_at o k * side_at o j) (FunctionalModel.eta (leg_at E o j)), x j)).
    rewrite (prod_map_ext _ _ (fun j => h (moved q j))).
    - rewrite <- (map_map (moved q) h), moved_all by exact P. apply prod_perm, Permutation_map, P.
    - intros j Hj. apply in_four in Hj. destruct (HS j Hj) as (E1 & E2). unfold h, leg_at. rewrite E1, E2. reflexivity. }
  unfold gain, loss. rewrite !HM. pose proof (side_pm o H4 Hpm) as PM. destruct (PM k K) as [-> | ->].
  - assert (HY : forall own, prod (factor own) (map (fun j => (mkLeg (- (-1) * side_at o j) (FunctionalModel.eta (leg_at E o j)), x j)) four) = prod (factor own) (map (fun j => (leg_at E o j, x j)) four)).
    { intros own. apply prod_map_ext. intros j _. unfold leg_at. cbn [FunctionalModel.eta]. change (- (-1))%Z with 1%Z. now rewrite Z.mul_1_l. }
    rewrite !HY. ring.
  - assert (PM' : forall j, In j four -> side_at o j = (-1)%Z \/ side_at o j = 1%Z) by (intros j Hj; apply PM; now apply in_four). rewrite !mirrored by auto. cbn [Z.opp]. ring.
Qed.

(* ---------- the interactions of the library ---------- *)
Definition f_scattering : list form := [([0; 1; 2; 3], (true, false))]%nat.
Definition f_annihilation : list form := [([0; 3; 1; 2], (true, false)); ([0; 2; 1; 3], (true, false)); ([2; 3; 0; 1], (false, true))]%nat.
Definition f_current : list form := [([0; 3; 1; 2], (true, false))]%nat.
Definition nth_K (l : list R) (n : nat) : R := nth n l 0 * (32 * G_Fermi ^ 2).
Ltac forms := repeat (apply formed_cons; [intros F; try discriminate F; unfold nth_K; cbn [nth]; ring|intros F; try discriminate F; unfold nth_K; cbn [nth]; ring|]); apply formed_nil.
Lemma formed_scattering : formed (nth_K [1]) (nth_K [0]) 0 f_scattering scattering_Ms.
Proof. unfold scattering_Ms, weak, f_scattering. cbn [store_order firstn skipn nsorted fold_right ninsert Nat.ltb Nat.leb app]. 
  change (formed (nth_K [1]) (nth_K [0]) 0 [([0; 1; 2; 3]%nat, (true, false))] [M4 [0; 1; 2; 3]%nat (nth_K [1] 0) (nth_K [0] 0) 0]). forms. Qed.
Lemma formed_current : formed (nth_K [4]) (nth_K [0]) 0 f_current CC_Ms.
Proof. change (formed (nth_K [4]) (nth_K [0]) 0 [([0; 3; 1; 2]%nat, (true, false))] [M4 [0; 3; 1; 2]%nat (nth_K [4] 0) (nth_K [0] 0) 0]). forms. Qed.
Lemma formed_annihilation g : formed (nth_K [4 * g_R ^ 2; 4 * g ^ 2; 0]) (nth_K [0; 0; 4 * g * g_R]) 0 f_annihilation (annihilation_Ms g).
Proof.
  change (formed (nth_K [4 * g_R ^ 2; 4 * g ^ 2; 0]) (nth_K [0; 0; 4 * g * g_R]) 0 f_annihilation
    [M4 [0; 3; 1; 2]%nat (nth_K [4 * g_R ^ 2; 4 * g ^ 2; 0] 0) (nth_K [0; 0; 4 * g * g_R] 0) 0; M4 [0; 2; 1; 3]%nat (nth_K [4 * g_R ^ 2; 4 * g ^ 2; 0] 1) (nth_K [0; 0; 4 * g * g_R] 1) 0;
     M4 [2; 3; 0; 1]%nat (nth_K [4 * g_R ^ 2; 4 * g ^ 2; 0] 2) (nth_K [0; 0; 4 * g * g_R] 2) 0]). forms.
Qed.
Lemma reciprocal_scattering : forallb (fun ab => reciprocal f_scattering [neutrino_scattering (fst ab) (snd ab)]) (list_prod SM_neutrinos SM_neutrinos) = true.
Proof. vm_compute. reflexivity. Qed.
Lemma reciprocal_annihilation : forallb (fun nl => reciprocal f_annihilation [neutrinos_to_leptons (fst nl) (snd nl)]) (list_prod SM_neutrinos SM_leptons) = true.
Proof. vm_compute. reflexivity. Qed.
Definition currents : list (lib * lib * lib * lib) :=
  filter (fun q => let '(n, on, l, ol) := q in (flav_eqb (flav n) (flav l) && flav_eqb (flav on) (flav ol) && negb (sid (sp n) =? sid (sp on))%nat && negb (sid (sp l) =? sid (sp ol))%nat)%bool)
    (list_prod (list_prod (list_prod SM_neutrinos SM_neutrinos) SM_leptons) SM_leptons).
Lemma reciprocal_current : forallb (fun q => let '(n, on, l, ol) := q in reciprocal f_current [leptons_CC n on l ol; leptons_CC on n ol l]) currents = true.
Proof. vm_compute. reflexivity. Qed.

Definition scatterings_M (ls ns : list lib) := neutrino_interactions_M ls ns ++ lepton_interactions_M ls ns.
(* the two interactions that belong together *)
Definition companion (ls ns : list lib) (t : tmpl) (M : list mel) : Prop :=
  exists fs K1 K2 ts, formed K1 K2 0 fs M /\ within fs = true /\ (forall u, In u ts -> interaction_ok u M) /\ reciprocal fs ts = true /\ In t ts /\ forall u, In u ts -> In (u, M) (scatterings_M ls ns).
Lemma current_in n on l ol ls ns : incl ls SM_leptons -> incl ns SM_neutrinos -> In n ns -> In on ns -> In l ls -> In ol ls -> sid (sp on) <> sid (sp n) -> sid (sp ol) <> sid (sp l) -> flav n = flav l -> flav on = flav ol ->
  In (n, on, l, ol) currents.
Proof.
  intros Hl Hn A B C D E F G H. apply filter_In. split; [repeat apply in_prod; auto|]. rewrite (proj2 (flav_eqb_eq _ _) G), (proj2 (flav_eqb_eq _ _) H). cbn [andb].
  apply andb_true_intro. split; apply Bool.negb_true_iff, Nat.eqb_neq; congruence.
Qed.
Lemma current_ok n on l ol : In n SM_neutrinos -> In on SM_neutrinos -> In l SM_leptons -> In ol SM_leptons -> interaction_ok (leptons_CC n on l ol) CC_Ms.
Proof.
  intros A B C D. split; [split; reflexivity|]. split; [|split; [reflexivity|]].
  - apply SM_told. intros x Hx. cbn in Hx. destruct Hx as [<-|[<-|[<-|[<-|[]]]]]; auto using in_ln, in_ll.
  - repeat (constructor; [apply weak_proper, perm4b; reflexivity|]). constructor.
Qed.
Lemma companions ls ns t M : incl ls SM_leptons -> incl ns SM_neutrinos -> In (t, M) (scatterings_M ls ns) -> companion ls ns t M.
Proof.
  intros Hl Hn Ht. assert (Ht0 := Ht). apply in_app_or in Ht. destruct Ht as [Ht|Ht].
  - assert (OK : interaction_ok t M) by exact (listed_hyps ls ns t M Hl Hn Ht).
    assert (ON : forall u, In u [t] -> u = t) by (intros u [<-|[]]; reflexivity).
    unfold neutrino_interactions_M in Ht. apply in_app_or in Ht. destruct Ht as [Ht|Ht].
    + apply in_map_iff in Ht. destruct Ht as ((a, b) & Et & Hab). injection Et as <- <-. apply cwr2_in in Hab. destruct Hab as (l1 & l2 & -> & Hb).
      eexists _, _, _, [neutrino_scattering a b]. split; [apply formed_scattering|]. split; [reflexivity|]. split; [intros u Hu; rewrite (ON u Hu); exact OK|]. split; [|split; [now left|intros u Hu; rewrite (ON u Hu); exact Ht0]].
      pose proof reciprocal_scattering as R. rewrite forallb_forall in R. apply (R (a, b)). apply in_prod; apply Hn, in_or_app; right; [now left|exact Hb].
    + apply in_flat_map in Ht. destruct Ht as (l & Il & Ht). apply in_map_iff in Ht. destruct Ht as (n & Et & In_). injection Et as <- <-.
      eexists _, _, _, [neutrinos_to_leptons n l]. split; [apply formed_annihilation|]. split; [reflexivity|]. split; [intros u Hu; rewrite (ON u Hu); exact OK|]. split; [|split; [now left|intros u Hu; rewrite (ON u Hu); exact Ht0]].
      pose proof reciprocal_annihilation as R. rewrite forallb_forall in R. apply (R (n, l)). apply in_prod; auto.
  - unfold lepton_interactions_M in Ht. apply in_map_iff in Ht. destruct Ht as (t' & E & I). injection E as -> <-. apply lepton_interactions_iff in I. destruct I as (n & on & l & ol & -> & A & B & C & D & E1 & E2 & E3 & E4).
    eexists _, _, _, [leptons_CC n on l ol; leptons_CC on n ol l]. split; [apply formed_current|]. split; [reflexivity|]. split; [|split; [|split; [now left|]]].
    + intros u [<-|[<-|[]]]; apply current_ok; auto.
    + pose proof reciprocal_current as R. rewrite forallb_forall in R. apply (R (n, on, l, ol)). apply (current_in n on l ol ls ns); auto.
    + assert (W : forall u, In u (lepton_interactions ls ns) -> In (u, CC_Ms) (scatterings_M ls ns)) by (intros u Hu; apply in_or_app; right; apply in_map_iff; now exists u).
      intros u [<-|[<-|[]]]; apply W, lepton_interactions_iff; [exists n, on, l, ol|exists on, n, ol, l]; repeat split; auto.
Qed.

(* every integral, looked at from each of its participants, is the integral of that
   participant *)
Theorem C151_reciprocity : forall ls ns t M out o k, incl ls SM_leptons -> incl ns SM_neutrinos ->
  In (t, M) (scatterings_M ls ns) -> cross_generating (species_of t) (tflags t) M = Ok out -> In o out -> (k < 4)%nat ->
  exists t' out' o' q, In (t', M) (scatterings_M ls ns) /\ cross_generating (species_of t') (tflags t') M = Ok out' /\ In o' out' /\ seen_through q o k o'.
Proof.
  intros ls ns t M out o k Hl Hn Ht E Ho Hk. destruct (companions ls ns t M Hl Hn Ht) as (fs & K1 & K2 & ts & C1 & C2 & C3 & C4 & C5 & C6).
  destruct (reciprocal_ok fs K1 K2 M ts t out o k C1 C2 C3 C4 C5 E Ho Hk) as (t' & out' & o' & T1 & T2 & T3 & (q & T4) & _). exists t', out', o', q. auto.
Qed.
Print Assumptions C151_reciprocity.

(* ---------- the same rate ---------- *)
Definition all_scatterings : list tmpl :=
  map (fun ab => neutrino_scattering (fst ab) (snd ab)) (list_prod SM_neutrinos SM_neutrinos) ++ map (fun nl => neutrinos_to_leptons (fst nl) (snd nl)) (list_prod SM_neutrinos SM_leptons) ++
  map (fun q => let '(n, on, l, ol) := q in leptons_CC n on l ol) currents.
Lemma listed ls ns t M : incl ls SM_leptons -> incl ns SM_neutrinos -> In (t, M) (scatterings_M ls ns) -> In t all_scatterings.
Proof.
  intros Hl Hn Ht. unfold all_scatterings. apply in_app_or in Ht. destruct Ht as [Ht|Ht].
  - destruct (listed_templates ls ns t M Hl Hn Ht) as [(a & b & _ & Ha & Hb & ->)|(n & l & Ha & Hb & ->)].
    + apply in_or_app. left. apply in_map_iff. exists (a, b). split; [reflexivity|]. now apply in_prod.
    + apply in_or_app. right. apply in_or_app. left. apply in_map_iff. exists (n, l). split; [reflexivity|]. now apply in_prod.
  - apply in_or_app. right. apply in_or_app. right. unfold lepton_interactions_M in Ht. apply in_map_iff in Ht. destruct Ht as (t' & E & I). injection E as -> <-. apply lepton_interactions_iff in I. destruct I as (n & on & l & ol & -> & A & B & C & D & E1 & E2 & E3 & E4).
    apply in_map_iff. exists (n, on, l, ol). split; [reflexivity|]. apply (current_in n on l ol ls ns); auto.
Qed.
Definition SM_light : list lib := SM_leptons ++ SM_neutrinos.
Definition plain_weight (r : list item) : bool :=
  ((weight (charged_names SM_light) r =? 2) && (length r =? 4) && forallb (fun it => existsb (specie_eqb (ispecie it)) (map sp SM_light)) r)%nat%bool.
Lemma plain_weights : forallb (fun t => forallb plain_weight (reactions_of t)) all_scatterings = true.
Proof. vm_compute. reflexivity. Qed.
Theorem C151_weight : forall ls ns t M out o ks, incl ls SM_leptons -> incl ns SM_neutrinos -> sees ks SM_light ->
  In (t, M) (scatterings_M ls ns) -> cross_generating (species_of t) (tflags t) M = Ok out -> In o out -> number_weight ks (ireaction o) = Ok 2.
Proof.
  intros ls ns t M out o ks Hl Hn HS Ht E Ho. assert (OK : interaction_ok t M) by (destruct (companions ls ns t M Hl Hn Ht) as (? & ? & ? & ? & ? & ? & C3 & _ & C5 & _); auto).
  destruct OK as (I1 & I2 & I3 & I4). destruct (integrals_amplitude t M I1 I2 I3 I4) as (out' & E' & _ & Hh & _). rewrite E in E'. injection E' as <-. destruct (Hh o Ho) as (r & Ir & Eh).
  assert (Er : ireaction o = r) by (unfold header in Eh; now injection Eh).
  pose proof plain_weights as W. rewrite forallb_forall in W. specialize (W t (listed ls ns t M Hl Hn Ht)). rewrite forallb_forall in W. specialize (W r Ir). unfold plain_weight in W.
  apply andb_prop in W. destruct W as [W W3]. apply andb_prop in W. destruct W as [W1 W2]. apply Nat.eqb_eq in W1, W2. rewrite Er.
  rewrite (weight_ok ks SM_light r HS); [now rewrite W1|vm_compute; reflexivity| |now right].
  intros it Hi. rewrite forallb_forall in W3. specialize (W3 it Hi). apply existsb_exists in W3. destruct W3 as (s & Hs & Es). apply specie_eqb_eq in Es. apply in_map_iff in Hs. destruct Hs as (p & <- & Hp). exists p. auto.
Qed.
Print Assumptions C151_weight.

(* one event changes the numbers of the participants of one side by the same
   amount, those of the other side by the opposite one, whichever integrals
   compute it *)
Theorem C151_rates : forall ls ns t M out o k ks E x p, incl ls SM_leptons -> incl ns SM_neutrinos -> sees ks SM_light ->
  In (t, M) (scatterings_M ls ns) -> cross_generating (species_of t) (tflags t) M = Ok out -> In o out -> (k < 4)%nat -> (forall j, 0 <= x j) ->
  exists t' out' o' q v, In (t', M) (scatterings_M ls ns) /\ cross_generating (species_of t') (tflags t') M = Ok out' /\ In o' out' /\ seen_through q o k o' /\
    event_rate ks E o x p = Ok v /\ event_rate ks E o' (fun j => x (moved q j)) (fun j => p (moved q j)) = Ok (- IZR (side_at o k) * v).
Proof.
  intros ls ns t M out o k ks E x p Hl Hn HS Ht Eo Ho Hk Hx. destruct (companions ls ns t M Hl Hn Ht) as (fs & K1 & K2 & ts & C1 & C2 & C3 & C4 & C5 & C6).
  assert (HO : side_at o 0 = (-1)%Z /\ length (ireaction o) = 4%nat /\ (forall it, In it (ireaction o) -> iside it = (-1)%Z \/ iside it = 1%Z)) by exact (heads_left fs M ts t out o C3 C4 C5 Eo Ho).
  destruct (reciprocal_ok fs K1 K2 M ts t out o k C1 C2 C3 C4 C5 Eo Ho Hk) as (t' & out' & o' & T1 & T2 & T3 & (q & T4) & T5 & T6 & T7).
  destruct HO as (O1 & O2 & O3). destruct (turned_functional E o o' k q x (seen_turns q o k o' T4) O2 T6 O1 T5 O3 Hk Hx) as (v & V1 & V2).
  exists t', out', o', q, (2 * event_amplitude o p * v). split; [auto|]. split; [exact T2|]. split; [exact T3|]. split; [exact T4|].
  unfold event_rate. rewrite (C151_weight ls ns t M out o ks), (C151_weight ls ns t' M out' o' ks) by auto. cbn [rbind]. rewrite V1, V2. cbn [rbind]. split; [reflexivity|].
  destruct T4 as (_ & _ & _ & T4). rewrite T4. f_equal. ring.
Qed.
Print Assumptions C151_rates.

(* the energy of the participants does not change in an event *)
Theorem C151_energy : forall ls ns ks E out o, incl ls SM_leptons -> incl ns SM_neutrinos -> sees ks SM_light ->
  (forall i, In i out <-> exists t M l, In (t, M) (scatterings_M ls ns) /\ cross_generating (species_of t) (tflags t) M = Ok l /\ In i l) ->
  In o out -> balanced ks E out o.
Proof.
  intros ls ns ks E out o Hl Hn HS HO Ho. apply HO in Ho. destruct Ho as (t & M & l & Ht & El & Ho).
  destruct (companions ls ns t M Hl Hn Ht) as (fs & K1 & K2 & ts & C1 & C2 & C3 & C4 & C5 & C6).
  assert (HH : side_at o 0 = (-1)%Z /\ length (ireaction o) = 4%nat /\ (forall it, In it (ireaction o) -> iside it = (-1)%Z \/ iside it = 1%Z)) by exact (heads_left fs M ts t l o C3 C4 C5 El Ho).
  assert (HK : forall k, (k < 4)%nat -> exists o' q, In o' out /\ turns q o k o' /\
    forall x p, (forall j, 0 <= x j) -> exists v, event_rate ks E o x p = Ok v /\ event_rate ks E o' (fun j => x (moved q j)) (fun j => p (moved q j)) = Ok (- IZR (side_at o k) * v)).
  { intros k Hk. destruct (reciprocal_ok fs K1 K2 M ts t l o k C1 C2 C3 C4 C5 El Ho Hk) as (t' & l' & o' & T1 & T2 & T3 & (q & T4) & T5 & T6 & T7).
    exists o', q. split; [apply HO; exists t', M, l'; auto|]. split; [now apply seen_turns|]. intros x p Hx.
    destruct HH as (O1 & O2 & O3). destruct (turned_functional E o o' k q x (seen_turns q o k o' T4) O2 T6 O1 T5 O3 Hk Hx) as (v & V1 & V2).
    exists (2 * event_amplitude o p * v). unfold event_rate. rewrite (C151_weight ls ns t M l o ks), (C151_weight ls ns t' M l' o' ks) by auto. cbn [rbind]. rewrite V1, V2. cbn [rbind]. split; [reflexivity|].
    destruct T4 as (_ & _ & _ & T4). rewrite T4. f_equal. ring. }
  destruct (HK 0%nat ltac:(lia)) as (o0 & q0 & A0 & B0 & R0). destruct (HK 1%nat ltac:(lia)) as (o1 & q1 & A1 & B1 & R1).
  destruct (HK 2%nat ltac:(lia)) as (o2 & q2 & A2 & B2 & R2). destruct (HK 3%nat ltac:(lia)) as (o3 & q3 & A3 & B3 & R3).
  exists (fun k => nth k [o0; o1; o2; o3] o), (fun k => nth k [q0; q1; q2; q3] []). split.
  - intros [|[|[|[|k]]]] Hk; cbn [nth]; auto. lia.
  - intros x p v Hx HP HR. destruct (R0 x p Hx) as (w & W & W0). destruct (R1 x p Hx) as (w1 & W' & W1). rewrite W in W'. injection W' as <-. destruct (R2 x p Hx) as (w2 & W' & W2). rewrite W in W'. injection W' as <-.
    destruct (R3 x p Hx) as (w3 & W' & W3). rewrite W in W'. injection W' as <-.
    pose proof (HR 0%nat ltac:(lia)) as V0. pose proof (HR 1%nat ltac:(lia)) as V1. pose proof (HR 2%nat ltac:(lia)) as V2. pose proof (HR 3%nat ltac:(lia)) as V3. cbn [nth] in V0, V1, V2, V3.
    rewrite W0 in V0. rewrite W1 in V1. rewrite W2 in V2. rewrite W3 in V3. injection V0 as <-. injection V1 as <-. injection V2 as <-. injection V3 as <-.
    destruct HP as (_ & HC). pose proof (HC energy (or_introl eq_refl)) as HE.
    replace (_ + _ + _ + _) with (- w * (IZR (side_at o 0) * energy (p 0%nat) + IZR (side_at o 1) * energy (p 1%nat) + IZR (side_at o 2) * energy (p 2%nat) + IZR (side_at o 3) * energy (p 3%nat))) by ring.
    rewrite HE. ring.
Qed.
Print Assumptions C151_energy.

(* ---------- no event is counted twice ---------- *)
Lemma meet_check_all : forallb (fun q => let '(n, on, l, ol) := q in forallb (fun t' => implb (meet (leptons_CC n on l ol) t' || meet t' (leptons_CC n on l ol)) (forallb (fun ab => (fst ab =? snd ab)%nat) (combine (ids (leptons_CC n on l ol)) (ids t')))) all_scatterings) currents = true.
Proof. vm_compute. reflexivity. Qed.
Lemma id_lepton_neutrino l n : In l SM_leptons -> In n SM_neutrinos -> sid (sp l) <> sid (sp n).
Proof. intros Hl Hn E. apply id_eq in E; auto using in_ln, in_ll. subst. eapply lepton_neutrino; eauto. Qed.
Lemma current_alone ls ns n on l ol t' M' : incl ls SM_leptons -> incl ns SM_neutrinos -> In (n, on, l, ol) currents -> In (t', M') (scatterings_M ls ns) ->
  (meet (leptons_CC n on l ol) t' || meet t' (leptons_CC n on l ol))%bool = true -> leptons_CC n on l ol = t'.
Proof.
  intros Hl Hn HC Ht HM. pose proof meet_check_all as C. rewrite forallb_forall in C. specialize (C _ HC). cbn beta iota in C. rewrite forallb_forall in C. specialize (C t' (listed ls ns t' M' Hl Hn Ht)).
  rewrite HM in C. cbn [implb] in C.
  assert (HI : In n SM_neutrinos /\ In on SM_neutrinos /\ In l SM_leptons /\ In ol SM_leptons).
  { apply filter_In in HC. destruct HC as [HC _]. apply in_prod_iff in HC. destruct HC as [HC ?]. apply in_prod_iff in HC. destruct HC as [HC ?]. apply in_prod_iff in HC. tauto. }
  destruct HI as (An & Aon & Al & Aol). apply in_app_or in Ht. destruct Ht as [Ht|Ht].
  - exfalso. destruct (listed_templates ls ns t' M' Hl Hn Ht) as [(a & b & _ & Ha & Hb & ->)|(n' & l' & Ha & Hb & ->)]; cbn [ids parts leptons_CC neutrino_scattering neutrinos_to_leptons tmpl22 tparts app map combine forallb fst snd] in C;
    apply andb_prop in C; destruct C as [C _]; apply Nat.eqb_eq in C; (eapply id_lepton_neutrino; [exact Al| |exact C]; assumption).
  - unfold lepton_interactions_M in Ht. apply in_map_iff in Ht. destruct Ht as (u & E & I). injection E as -> <-. apply lepton_interactions_iff in I. destruct I as (n' & on' & l' & ol' & -> & A & B & D & F & _).
    cbn in C. apply andb_prop in C. destruct C as [C1 C]. apply andb_prop in C. destruct C as [C2 C]. apply andb_prop in C. destruct C as [C3 C]. apply andb_prop in C. destruct C as [C4 _].
    apply Nat.eqb_eq in C1, C2, C3, C4. apply id_eq in C1; auto using in_ll. apply id_eq in C2; auto using in_ll. apply id_eq in C3; auto using in_ln. apply id_eq in C4; auto using in_ln. now subst.
Qed.
Theorem C151_once : forall ls ns t M out o t' M' out' o', NoDup ns -> incl ls SM_leptons -> incl ns SM_neutrinos ->
  In (t, M) (scatterings_M ls ns) -> cross_generating (species_of t) (tflags t) M = Ok out -> In o out ->
  In (t', M') (scatterings_M ls ns) -> cross_generating (species_of t') (tflags t') M' = Ok out' -> In o' out' ->
  similar o o' -> t = t' /\ ForallOrdPairs (fun i j => ~ similar i j) out.
Proof.
  intros ls ns t M out o t' M' out' o' ND Hl Hn Ht E Ho Ht' E' Ho' HS.
  assert (HH : forall t M out o, In (t, M) (scatterings_M ls ns) -> cross_generating (species_of t) (tflags t) M = Ok out -> In o out ->
    ForallOrdPairs (fun i j => ~ similar i j) out /\ exists r, In r (reactions_of t) /\ header o = header (of_reaction r)).
  { clear -Hl Hn. intros t M out o Ht E Ho. destruct (companions ls ns t M Hl Hn Ht) as (? & ? & ? & ? & ? & ? & C3 & _ & C5 & _). destruct (C3 t C5) as (I1 & I2 & I3 & I4).
    destruct (integrals_amplitude t M I1 I2 I3 I4) as (out' & E' & HO & Hh & _). rewrite E in E'. injection E' as <-. auto. }
  destruct (HH t M out o Ht E Ho) as (HO & r & Ir & Er). destruct (HH t' M' out' o' Ht' E' Ho') as (_ & r' & Ir' & Er'). split; [|exact HO].
  assert (HM : meet t t' = true).
  { apply existsb_exists. exists r. split; [exact Ir|]. apply existsb_exists. exists r'. split; [exact Ir'|]. apply same_integral_spec. apply (similar_header o o'); auto. }
  assert (CC : forall u N, In (u, N) (lepton_interactions_M ls ns) -> exists n on l ol, u = leptons_CC n on l ol /\ In (n, on, l, ol) currents).
  { intros u N I. unfold lepton_interactions_M in I. apply in_map_iff in I. destruct I as (v & Ev & I). injection Ev as -> <-. apply lepton_interactions_iff in I. destruct I as (n & on & l & ol & -> & A & B & C & D & E1 & E2 & E3 & E4).
    exists n, on, l, ol. split; [reflexivity|]. apply (current_in n on l ol ls ns); auto. }
  assert (Ht0 := Ht). assert (Ht0' := Ht'). apply in_app_or in Ht, Ht'. destruct Ht as [Ht|Ht].
  - destruct Ht' as [Ht'|Ht'].
    + exact (proj1 (C150_once ls ns t M out o t' M' out' o' ND Hl Hn Ht E Ho Ht' E' Ho' HS)).
    + destruct (CC t' M' Ht') as (n & on & l & ol & -> & HC). symmetry. apply (current_alone ls ns n on l ol t M); auto. rewrite HM. apply Bool.orb_true_r.
  - destruct (CC t M Ht) as (n & on & l & ol & -> & HC). apply (current_alone ls ns n on l ol t' M'); auto. now rewrite HM.
Qed.
Print Assumptions C151_once.

(* the decay of the muon as its products see it *)
Definition muon_current := leptons_CC neutrino_mu neutrino_e muon electron.
Definition muon_event : list (list string * list Z) :=
  map (fun r => (map (fun it => sname (ispecie it)) r, map iside r)) (filter (fun r => (length (lefts r) =? 1)%nat || (length (lefts r) =? 3)%nat)%bool
    (reactions_of muon_current ++ reactions_of (leptons_CC neutrino_e neutrino_mu electron muon))).
Example C151_ex : length (scatterings_M SM_leptons SM_neutrinos) = 21%nat /\ In (muon_current, CC_Ms) (scatterings_M SM_leptons SM_neutrinos) /\
  muon_event = [(["Muon"; "Electron"; "Electron neutrino"; "Muon neutrino"]%string, [-1; 1; 1; 1]%Z); (["Electron neutrino"; "Electron"; "Muon neutrino"; "Muon"]%string, [-1; -1; -1; 1]%Z);
    (["Electron"; "Electron neutrino"; "Muon neutrino"; "Muon"]%string, [-1; -1; -1; 1]%Z); (["Muon neutrino"; "Electron"; "Electron neutrino"; "Muon"]%string, [-1; -1; -1; 1]%Z)].
Proof.
  split; [reflexivity|]. split; [|vm_compute; reflexivity]. apply in_or_app. right. unfold lepton_interactions_M. apply in_map_iff. exists muon_current. split; [reflexivity|].
  apply lepton_interactions_iff. exists neutrino_mu, neutrino_e, muon, electron. cbn; intuition discriminate.
Qed.
