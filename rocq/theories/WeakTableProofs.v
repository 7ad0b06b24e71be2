(* The published amplitudes of neutrino reactions and those of the collision integrals. *)
From Coq Require Import Reals Lra Permutation.
From Verif Require Import Base CrossModel CrossProofs CrossProofs2 CrossProofs3 CrossProofs4 ParamsModel LibModel LibProofs Lib2Proofs MatrixModel Matrix2Proofs MatrixProps Lib3Proofs LedgerProps ShapeProofs.
Open Scope R_scope.
Local Notation length := List.length.

(* ---------- specification ----------
   Squared amplitudes of the reactions 1 + 2 -> 3 + 4 (symmetry factors included,
   summed over helicities) as tabulated in the literature on neutrino decoupling
   (Hannestad and Madsen 1995; Dolgov, Hansen and Semikoz 1997), in units of
   32 G_F^2. Particles and antiparticles have the same distributions, so the
   reactions that differ in their antiparticles only are added up. *)
Definition sin2w : R := 2312 / 10000.
Definition partners (a l : lib) : bool :=
  existsb (fun nl => (String.eqb (lname a) (fst nl) && String.eqb (lname l) (snd nl))%bool)
    [("Electron neutrino", "Electron"); ("Muon neutrino", "Muon"); ("Tau neutrino", "Tau")]%string.
Definition gL (a l : lib) : R := if partners a l then 1 / 2 + sin2w else - 1 / 2 + sin2w.
Definition gR : R := sin2w.
Definition amplitude := vec4 -> vec4 -> vec4 -> vec4 -> R.
(* nu nu -> nu nu and nu anti-nu -> nu anti-nu of one flavour *)
Definition one_flavour : amplitude := fun p1 p2 p3 p4 => 2 * dot p1 p2 * dot p3 p4 + 4 * dot p1 p4 * dot p2 p3.
(* nu_a nu_b -> nu_a nu_b and nu_a anti-nu_b -> nu_a anti-nu_b *)
Definition two_flavours : amplitude := fun p1 p2 p3 p4 => dot p1 p2 * dot p3 p4 + dot p1 p4 * dot p2 p3.
(* nu_a anti-nu_a -> nu_b anti-nu_b *)
Definition flavour_change : amplitude := fun p1 p2 p3 p4 => dot p1 p4 * dot p2 p3.
(* nu anti-nu -> l+ l- *)
Definition pair_production (l r m : R) : amplitude := fun p1 p2 p3 p4 =>
  4 * (l ^ 2 * dot p1 p4 * dot p2 p3 + r ^ 2 * dot p1 p3 * dot p2 p4 + l * r * m ^ 2 * dot p1 p2).
(* nu l- -> nu l- and nu l+ -> nu l+ *)
Definition on_electron (l r m : R) : amplitude := fun p1 p2 p3 p4 =>
  4 * (l ^ 2 * dot p1 p2 * dot p3 p4 + r ^ 2 * dot p1 p4 * dot p2 p3 - l * r * m ^ 2 * dot p1 p3).
Definition on_positron (l r m : R) : amplitude := on_electron r l m.
Inductive published : list lib -> amplitude -> Prop :=
| pub_one a : In a SM_neutrinos -> published [a; a; a; a] one_flavour
| pub_two a b : In a SM_neutrinos -> In b SM_neutrinos -> lname a <> lname b -> published [a; b; a; b] two_flavours
| pub_change a b : In a SM_neutrinos -> In b SM_neutrinos -> lname a <> lname b -> published [a; a; b; b] flavour_change
| pub_pair a l : In a SM_neutrinos -> In l SM_leptons -> published [a; a; l; l] (pair_production (gL a l) gR (mass l))
| pub_lepton a l : In a SM_neutrinos -> In l SM_leptons ->
    published [a; l; a; l] (fun p1 p2 p3 p4 => on_electron (gL a l) gR (mass l) p1 p2 p3 p4 + on_positron (gL a l) gR (mass l) p1 p2 p3 p4).

(* The amplitude of a collision integral at four momenta given to its places; if
   the two outgoing particles are of one species, only the sum over exchanging
   their momenta enters. The places of outgoing particles may be exchanged. *)
Definition mass_at (o : integral) (k : nat) : R := match nth_error (ireaction o) k with Some it => IZR (smass (ispecie it)) * eV | None => 0 end.
Definition amplitude_of (o : integral) : amplitude := fun p1 p2 p3 p4 => total (Ms o) (momenta4 p1 p2 p3 p4) (mass_at o).
Definition exchanged (T : amplitude) : amplitude := fun p1 p2 p3 p4 => T p1 p2 p4 p3.
Definition both (T : amplitude) : amplitude := fun p1 p2 p3 p4 => T p1 p2 p3 p4 + exchanged T p1 p2 p3 p4.
Definition agree (T U : amplitude) : Prop := forall p1 p2 p3 p4, T p1 p2 p3 p4 = 32 * G_Fermi ^ 2 * U p1 p2 p3 p4.
Definition two_to_two (o : integral) (xs : list lib) : Prop :=
  map ispecie (ireaction o) = map sp xs /\ map iside (ireaction o) = [-1; -1; 1; 1]%Z /\ particle o = sp (hd electron xs).
Definition stands_for (o : integral) (xs : list lib) (T : amplitude) : Prop :=
  match xs with
  | [x1; x2; x3; x4] =>
      if String.eqb (lname x3) (lname x4) then two_to_two o xs /\ agree (both (amplitude_of o)) (both T)
      else two_to_two o xs /\ agree (amplitude_of o) T \/ two_to_two o [x1; x2; x4; x3] /\ agree (exchanged (amplitude_of o)) T
  | _ => False
  end.

(* ---------- *)
Lemma dot_negl p q : dot (neg p) q = - dot p q.
Proof. destruct p as [[[a b] c] d], q as [[[a' b'] c'] d']. cbn. ring. Qed.
Lemma dot_negr p q : dot p (neg q) = - dot p q.
Proof. destruct p as [[[a b] c] d], q as [[[a' b'] c'] d']. cbn. ring. Qed.
Lemma weak_proper K1 K2 o : Permutation (store_order o) (seq 0 4) -> proper (weak K1 K2 o).
Proof. intros H. eexists _, _, _. split; [reflexivity|exact H]. Qed.
Lemma scattering_proper : Forall proper scattering_Ms.
Proof. constructor; [|constructor]. apply weak_proper, perm4b; reflexivity. Qed.
Lemma annihilation_proper g : Forall proper (annihilation_Ms g).
Proof. repeat (constructor; [apply weak_proper, perm4b; reflexivity|]). constructor. Qed.

Definition species_mass (l : list specie) (k : nat) : R := match nth_error l k with Some s => IZR (smass s) * eV | None => 0 end.
Lemma mass_at_species o k : mass_at o k = species_mass (map ispecie (ireaction o)) k.
Proof. unfold mass_at, species_mass. rewrite nth_error_map. now destruct (nth_error _ _). Qed.

Lemma SM_told l : incl l (SM_leptons ++ SM_neutrinos) -> told_apart l.
Proof. intros H. exact (told_incl _ _ H told_library). Qed.
Lemma in_ln n : In n SM_neutrinos -> In n (SM_leptons ++ SM_neutrinos).
Proof. intros. apply in_or_app. auto. Qed.
Lemma in_ll n : In n SM_leptons -> In n (SM_leptons ++ SM_neutrinos).
Proof. intros. apply in_or_app. auto. Qed.

Ltac one_group o H := let g := fresh "g" in let Eg := fresh "Eg" in remember (group_of o) as g eqn:Eg; vm_compute in H;
  repeat match type of H with _ \/ _ => destruct H as [H|H] end; [..|destruct H];
  apply pair_equal_spec in H; let G := fresh "G" in destruct H as (G & <-); subst g; apply pair_equal_spec in G; destruct G as (S & D).
Ltac three H := cbn [In SM_neutrinos SM_leptons] in H; destruct H as [<-|[<-|[<-|[]]]].
Ltac amplitude_ring HT := unfold agree, both, exchanged, amplitude_of; intros p1 p2 p3 p4; rewrite !HT;
  unfold shapes_amplitude, shape_amplitude, total, scattering_Ms, annihilation_Ms, weak, store_order, shape_momentum, shape_mass;
  cbn [shapes_amplitude map fold_right shape_amplitude filter snd length pow total scattering_Ms annihilation_Ms weak store_order nsorted ninsert firstn skipn app Nat.ltb Nat.leb Msq shape_momentum shape_mass place Nat.eqb momenta4];
  rewrite ?dot_negl, ?dot_negr;
  unfold one_flavour, two_flavours, flavour_change, pair_production, on_positron, on_electron;
  rewrite ?(dot_sym p4 p1), ?(dot_sym p4 p2), ?(dot_sym p4 p3), ?(dot_sym p3 p1), ?(dot_sym p3 p2), ?(dot_sym p2 p1).

Ltac settle := unfold stands_for; match goal with |- if ?b then _ else _ => let v := eval vm_compute in b in change b with v; cbv iota end.
Ltac nu := cbn [In SM_neutrinos SM_leptons]; tauto.
Ltac in_table := first [apply pub_one; nu | apply pub_two; [nu|nu|discriminate] | apply pub_change; [nu|nu|discriminate] | apply pub_pair; nu | apply pub_lepton; nu].
Ltac equal_amplitudes o HT S := amplitude_ring HT; rewrite ?(mass_at_species o), <- ?S; cbn [species_mass nth_error smass];
  unfold mass, g_L_of, gL, gR, g_R, sin2w, sin_theta_w_2;
  cbn -[Rmult Rplus Rminus Rdiv Rinv Ropp IZR pow dot G_Fermi eV]; field.
Ltac same_particles Q D Ep := split; [exact Q|split; [now rewrite <- D|exact Ep]].
Ltac try_entry o S D Ep HT ys xs T :=
  assert (map ispecie (ireaction o) = map sp ys) as Q by (rewrite <- S; reflexivity);
  exists xs, T; split; [in_table|]; split; [|reflexivity]; settle;
  first [ split; [same_particles Q D Ep|equal_amplitudes o HT S]
        | left; split; [same_particles Q D Ep|equal_amplitudes o HT S]
        | right; split; [same_particles Q D Ep|equal_amplitudes o HT S]].
Ltac with_neutrino o S D Ep HT c d := first [ try_entry o S D Ep HT [c; d; c; d] [c; d; c; d] two_flavours | try_entry o S D Ep HT [c; d; d; c] [c; d; c; d] two_flavours
                            | try_entry o S D Ep HT [c; c; d; d] [c; c; d; d] flavour_change ].
Ltac scattering_entry o S D Ep HT c := 
  first [ try_entry o S D Ep HT [c; c; c; c] [c; c; c; c] one_flavour
        | with_neutrino o S D Ep HT c neutrino_e | with_neutrino o S D Ep HT c neutrino_mu | with_neutrino o S D Ep HT c neutrino_tau ].

Lemma scattering_table a b out o c : In a SM_neutrinos -> In b SM_neutrinos -> cross_generating (species_of (neutrino_scattering a b)) (tflags (neutrino_scattering a b)) scattering_Ms = Ok out ->
  In o out -> In c SM_neutrinos -> particle o = sp c -> exists xs T, published xs T /\ stands_for o xs T /\ hd electron xs = c.
Proof.
  intros Ha Hb E Ho Hc Ep.
  destruct (integrals_amplitude (neutrino_scattering a b) scattering_Ms) as (out' & E' & _ & _ & _ & HA).
  { split; reflexivity. } { apply SM_told. intros x Hx. cbn in Hx. apply in_ln. intuition (subst; auto). } { reflexivity. } { apply scattering_proper. }
  rewrite E in E'. injection E' as <-. destruct (HA o Ho) as (ss & Hin & Hp & HT). clear HA Ho E out.
  three Ha; three Hb; one_group o Hin; rewrite <- S in Hp; cbn [hd] in Hp; rewrite Ep in Hp; 
  three Hc; try (apply (f_equal sid) in Hp; discriminate Hp).
  all: clear Hp.
  all: match goal with |- exists xs T, _ /\ _ /\ _ = ?c => scattering_entry o S D Ep HT c end.
Qed.
Ltac with_lepton o S D Ep HT c l :=
  first [ try_entry o S D Ep HT [c; c; l; l] [c; c; l; l] (pair_production (gL c l) gR (mass l))
        | try_entry o S D Ep HT [c; l; c; l] [c; l; c; l] (fun p1 p2 p3 p4 => on_electron (gL c l) gR (mass l) p1 p2 p3 p4 + on_positron (gL c l) gR (mass l) p1 p2 p3 p4)
        | try_entry o S D Ep HT [c; l; l; c] [c; l; c; l] (fun p1 p2 p3 p4 => on_electron (gL c l) gR (mass l) p1 p2 p3 p4 + on_positron (gL c l) gR (mass l) p1 p2 p3 p4) ].
Lemma lepton_table n l out o c : In n SM_neutrinos -> In l SM_leptons ->
  cross_generating (species_of (neutrinos_to_leptons n l)) (tflags (neutrinos_to_leptons n l)) (annihilation_Ms (g_L_of l n)) = Ok out ->
  In o out -> In c SM_neutrinos -> particle o = sp c -> exists xs T, published xs T /\ stands_for o xs T /\ hd electron xs = c.
Proof.
  intros Hn Hl E Ho Hc Ep.
  destruct (integrals_amplitude (neutrinos_to_leptons n l) (annihilation_Ms (g_L_of l n))) as (out' & E' & _ & _ & _ & HA).
  { split; reflexivity. } { apply SM_told. intros x Hx. cbn in Hx. destruct Hx as [<-|[<-|[<-|[<-|[]]]]]; auto using in_ln, in_ll. } { reflexivity. } { apply annihilation_proper. }
  rewrite E in E'. injection E' as <-. destruct (HA o Ho) as (ss & Hin & Hp & HT). clear HA Ho E out.
  three Hn; three Hl; one_group o Hin; rewrite <- S in Hp; cbn [hd] in Hp; rewrite Ep in Hp;
  three Hc; try (apply (f_equal sid) in Hp; discriminate Hp).
  all: clear Hp.
  all: match goal with |- exists xs T, _ /\ _ /\ _ = ?c => first [with_lepton o S D Ep HT c electron | with_lepton o S D Ep HT c muon | with_lepton o S D Ep HT c tau] end.
Qed.
