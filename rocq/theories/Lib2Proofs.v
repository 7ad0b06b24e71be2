(* The decay chains built by meson_interactions *)
From Coq Require Import Permutation Relations.
From Verif Require Import Base CrossModel CrossProofs CrossProofs2 LibModel LibProofs.

(* ------------------------------------------------------------------ *)
(* Specification: the mesons of the library and their decays, as listed in
   SM.py:747-951 with the library particles in place of the variables *)
Inductive meson := Mpi0 | Mpi | MK | MKL | MKS | Meta | Mrho0 | Mrho | Momega | Metap | Mphi.
Definition all_mesons := [Mpi0; Mpi; MK; MKL; MKS; Meta; Mrho0; Mrho; Momega; Metap; Mphi].
Definition lib_of (m : meson) : lib :=
  match m with
  | Mpi0 => neutral_pion | Mpi => charged_pion | MK => charged_kaon | MKL => kaon_long | MKS => kaon_short | Meta => eta
  | Mrho0 => neutral_rho | Mrho => charged_rho | Momega => omega | Metap => eta_prime | Mphi => phi
  end.
Definition channels (m : meson) : list tmpl :=
  match m with
  | Mpi0 => [mkTmpl ([neutral_pion], [photon; photon]) ([false], [false; false])]
  | Mpi => [mkTmpl ([charged_pion], [muon; neutrino_mu]) ([false], [false; true]);
            mkTmpl ([charged_pion], [muon; neutrino_mu]) ([true], [true; false])]
  | MK => [mkTmpl ([charged_kaon; neutral_pion], [electron; neutrino_e]) ([false; false], [false; true]);
           mkTmpl ([charged_kaon; charged_pion], [charged_pion; charged_pion]) ([false; true], [false; false]);
           mkTmpl ([charged_kaon], [muon; neutrino_mu]) ([false], [false; true]);
           mkTmpl ([charged_kaon], [charged_pion; neutral_pion]) ([false], [false; false])]
  | MKL => [mkTmpl ([kaon_long; charged_pion], [electron; neutrino_e]) ([false; true], [false; true]);
            mkTmpl ([kaon_long; charged_pion], [muon; neutrino_mu]) ([false; true], [false; true]);
            mkTmpl ([kaon_long; neutral_pion], [neutral_pion; neutral_pion]) ([false; false], [false; false]);
            mkTmpl ([kaon_long; neutral_pion], [charged_pion; charged_pion]) ([false; false], [false; true])]
  | MKS => [mkTmpl ([kaon_short], [neutral_pion; neutral_pion]) ([false], [false; false]);
            mkTmpl ([kaon_short], [charged_pion; charged_pion]) ([false], [false; true])]
  | Meta => [mkTmpl ([eta], [photon; photon]) ([false], [false; false]);
             mkTmpl ([eta; neutral_pion], [neutral_pion; neutral_pion]) ([false; false], [false; false]);
             mkTmpl ([eta; neutral_pion], [charged_pion; charged_pion]) ([false; false], [false; true]);
             mkTmpl ([eta; photon], [charged_pion; charged_pion]) ([false; false], [false; true])]
  | Mrho0 => [mkTmpl ([neutral_rho], [charged_pion; charged_pion]) ([false], [true; false])]
  | Mrho => [mkTmpl ([charged_rho], [charged_pion; neutral_pion]) ([false], [false; false])]
  | Momega => [mkTmpl ([omega; charged_pion], [charged_pion; neutral_pion]) ([false; true], [false; false]);
               mkTmpl ([omega], [neutral_pion; photon]) ([false], [false; false])]
  | Metap => [mkTmpl ([eta_prime; eta], [charged_pion; charged_pion]) ([false; false], [false; true]);
              mkTmpl ([eta_prime; neutral_pion], [neutral_pion; eta]) ([false; false], [false; false]);
              mkTmpl ([eta_prime], [neutral_rho; photon]) ([false], [false; false])]
  | Mphi => [mkTmpl ([phi], [charged_kaon; charged_kaon]) ([false], [true; false]);
             mkTmpl ([phi], [kaon_long; kaon_short]) ([false], [false; false]);
             mkTmpl ([phi], [neutral_rho; neutral_pion]) ([false], [false; false])]
  end.
(* m is a product of a decay of p; p produces m through a chain of decays *)
Definition product_of (p m : meson) : Prop := exists c, In c (channels p) /\ In (lib_of m) (tl (parts c)).
Definition chain : meson -> meson -> Prop := clos_trans meson product_of.
(* m is reached as a product before it is met as a primary meson *)
Definition pulled (m : meson) (ps : list meson) : Prop := exists l1 p l2, ps = l1 ++ p :: l2 /\ chain p m /\ ~ In m l1.

Definition lib_leptons := [electron; muon; tau].
Definition lib_neutrinos := [neutrino_e; neutrino_mu; neutrino_tau].
(* the library's particles are given, whatever the order and repetitions *)
Definition complete (E : menv) : Prop :=
  (forall m, named (lname (lib_of m)) (mesons E) = Some (lib_of m)) /\
  named "Electron" (leptons E) = Some electron /\ named "Muon" (leptons E) = Some muon /\
  named "Electron neutrino" (neutrinos E) = Some neutrino_e /\ named "Muon neutrino" (neutrinos E) = Some neutrino_mu /\
  hd_error (photons E) = Some photon /\ incl (leptons E) lib_leptons /\ incl (neutrinos E) lib_neutrinos.

Definition flavour_dec (a b : flavour) : {a = b} + {a <> b}. Proof. decide equality. Defined.
Definition mtype_dec (a b : mtype) : {a = b} + {a <> b}. Proof. decide equality. Defined.
Definition specie_dec (a b : specie) : {a = b} + {a <> b}.
Proof. decide equality; [apply Bool.bool_dec|apply Z.eq_dec|apply string_dec|apply Nat.eq_dec]. Defined.
Definition opt_dec {A} (d : forall a b : A, {a = b} + {a <> b}) (a b : option A) : {a = b} + {a <> b}. Proof. decide equality. Defined.
Definition pair_dec {A B} (d : forall a b : A, {a = b} + {a <> b}) (d' : forall a b : B, {a = b} + {a <> b}) (a b : A * B) : {a = b} + {a <> b}. Proof. decide equality. Defined.
Definition lib_dec (a b : lib) : {a = b} + {a <> b}.
Proof.
  decide equality; try apply Z.eq_dec; try apply Nat.eq_dec; try apply Bool.bool_dec; try apply string_dec; try apply specie_dec.
  - apply opt_dec, mtype_dec.
  - apply opt_dec, list_eq_dec, pair_dec; [apply string_dec|apply Z.eq_dec].
  - apply opt_dec, flavour_dec.
Defined.
Definition tmpl_dec (a b : tmpl) : {a = b} + {a <> b}.
Proof. decide equality; apply pair_dec; apply list_eq_dec; try apply lib_dec; apply Bool.bool_dec. Defined.
Definition meson_dec (a b : meson) : {a = b} + {a <> b}. Proof. decide equality. Defined.

(* ------------------------------------------------------------------ *)
(* the chain relation, computed *)
Definition prodb (p m : meson) : bool := existsb (fun c => existsb (fun x => if lib_dec x (lib_of m) then true else false) (tl (parts c))) (channels p).
Lemma prodb_spec p m : prodb p m = true <-> product_of p m.
Proof.
  unfold prodb, product_of. rewrite existsb_exists. split; intros (c & I & H); exists c; (split; [exact I|]).
  - apply existsb_exists in H. destruct H as (x & Ix & Hx). destruct (lib_dec x (lib_of m)) as [->|]; [exact Ix|discriminate].
  - apply existsb_exists. exists (lib_of m). split; [exact H|]. destruct (lib_dec (lib_of m) (lib_of m)); congruence.
Qed.
Definition feedsb (p m : meson) : bool :=
  match p, m with
  | (MK | MKL | MKS | Meta | Mrho | Momega), (Mpi | Mpi0) => true
  | Mrho0, Mpi => true
  | Metap, (Mrho0 | Meta | Mpi | Mpi0) => true
  | Mphi, (Mrho0 | MK | MKL | MKS | Mpi | Mpi0) => true
  | _, _ => false
  end.
Lemma feedsb_trans p q m : feedsb p q = true -> feedsb q m = true -> feedsb p m = true.
Proof. destruct p, q; cbn; intros E; try discriminate E; destruct m; cbn; auto. Qed.
Lemma prodb_feeds p m : prodb p m = true -> feedsb p m = true.
Proof. destruct p, m; vm_compute; auto. Qed.
Lemma feeds_prodb p m : feedsb p m = true -> prodb p m = true \/ exists k, prodb p k = true /\ prodb k m = true.
Proof.
  intros H. destruct (prodb p m) eqn:E; [now left|right].
  assert (G : existsb (fun k => prodb p k && prodb k m) all_mesons = true) by (destruct p, m; vm_compute in *; congruence).
  apply existsb_exists in G. destruct G as (k & _ & G). exists k. now apply andb_prop.
Qed.
Lemma chain_feeds p m : chain p m <-> feedsb p m = true.
Proof.
  split.
  - induction 1 as [x y H|x y z _ A _ B]; [apply prodb_feeds; now apply prodb_spec|eapply feedsb_trans; eauto].
  - intros H. apply feeds_prodb in H. destruct H as [H|(k & A & B)].
    + apply t_step. now apply prodb_spec.
    + eapply t_trans; apply t_step; apply prodb_spec; eauto.
Qed.

(* ------------------------------------------------------------------ *)
(* the state of the construction: how often the decays of a meson are there *)
Definition incr (cnt : meson -> nat) (p m : meson) : nat := if meson_dec m p then S (cnt m) else cnt m.
Definition fill (X : meson -> bool) (cnt : meson -> nat) (m : meson) : nat := if X m && (cnt m =? 0) then 1 else cnt m.
Definition clos (p m : meson) : bool := if meson_dec m p then true else feedsb p m.
Definition closed (cnt : meson -> nat) : Prop := forall p m, feedsb p m = true -> 0 < cnt p -> 0 < cnt m.
(* what meson_interactions can put into its result *)
Definition known (t : tmpl) : Prop := (exists m, In t (channels m)) \/
  exists ls ns, incl ls lib_leptons /\ incl ns lib_neutrinos /\ In t (lepton_interactions ls ns).
Definition rep (inters : list tmpl) (cnt : meson -> nat) : Prop :=
  (forall t, In t inters -> known t) /\
  (forall m c, In c (channels m) -> count_occ tmpl_dec inters c = cnt m) /\
  (forall m, already_there inters (lname (lib_of m)) = (0 <? cnt m)) /\ closed cnt.

Lemma rep_ext inters cnt cnt' : (forall m, cnt m = cnt' m) -> rep inters cnt -> rep inters cnt'.
Proof.
  intros H (K & A & B & C). split; [exact K|split; [|split]].
  - intros m c I. rewrite <- H. eauto.
  - intros m. rewrite <- H. auto.
  - intros p m F. rewrite <- !H. eauto.
Qed.
Lemma already_there_app a b n : already_there (a ++ b) n = already_there a n || already_there b n.
Proof. apply existsb_app. Qed.

(* the decays of different mesons are different, and each is listed once *)
Lemma channels_count m m' c : In c (channels m') -> count_occ tmpl_dec (channels m) c = if meson_dec m' m then 1 else 0.
Proof.
  assert (G : forallb (fun m => forallb (fun m' => forallb (fun c => count_occ tmpl_dec (channels m) c =? (if meson_dec m' m then 1 else 0)) (channels m')) all_mesons) all_mesons = true) by (vm_compute; reflexivity).
  assert (A : forall x, In x all_mesons) by (intros x; destruct x; cbn; tauto).
  rewrite forallb_forall in G. specialize (G m (A m)). rewrite forallb_forall in G. specialize (G m' (A m')). rewrite forallb_forall in G.
  intros I. specialize (G c I). now apply Nat.eqb_eq in G.
Qed.
Lemma channels_mention m m' : already_there (channels m) (lname (lib_of m')) = true -> m' = m \/ feedsb m m' = true.
Proof. destruct m, m'; vm_compute; auto; discriminate. Qed.
Lemma channels_mention_self m : already_there (channels m) (lname (lib_of m)) = true.
Proof. destruct m; vm_compute; reflexivity. Qed.

Lemma add_block inters cnt m : rep inters cnt -> (forall m', feedsb m m' = true -> 0 < cnt m') -> rep (inters ++ channels m) (incr cnt m).
Proof.
  intros (K & A & B & C) H. split; [|split; [|split]].
  - intros t I. apply in_app_or in I. destruct I as [I|I]; [auto|left; now exists m].
  - intros m' c I. rewrite count_occ_app, (A m' c I), (channels_count m m' c I). unfold incr. destruct (meson_dec m' m); lia.
  - intros m'. rewrite already_there_app, B. unfold incr. destruct (meson_dec m' m) as [->|N].
    + rewrite channels_mention_self, Bool.orb_true_r. symmetry. apply Nat.ltb_lt. lia.
    + destruct (already_there (channels m) (lname (lib_of m'))) eqn:E; [|apply Bool.orb_false_r].
      apply channels_mention in E. destruct E as [E|E]; [contradiction|]. rewrite Bool.orb_true_r. symmetry. apply Nat.ltb_lt. now apply H.
  - intros p m' F Hp. assert (G : 0 < cnt m').
    { unfold incr in Hp. destruct (meson_dec p m) as [->|N]; [now apply H|]. eauto. }
    unfold incr. destruct (meson_dec m' m); lia.
Qed.

(* the interactions of leptons mention no meson *)
Lemma others_incl x l : incl (others x l) l.
Proof. intros y H. now apply filter_In in H. Qed.
Lemma lepton_interactions_in ls ns t : In t (lepton_interactions ls ns) -> exists n on l ol,
  t = leptons_CC n on l ol /\ In n ns /\ In on (others n ns) /\ In l ls /\ In ol (others l ls) /\ flav_eqb (flav n) (flav l) = true /\ flav_eqb (flav on) (flav ol) = true.
Proof.
  unfold lepton_interactions. intros H. apply in_flat_map in H. destruct H as (l & Il & H). apply in_flat_map in H. destruct H as (n & In' & H).
  destruct (_ && _) in H; [|destruct H]. apply in_flat_map in H. destruct H as (ol & Iol & H). apply in_flat_map in H. destruct H as (on & Ion & H).
  destruct (flav_eqb (flav n) (flav l)) eqn:E1; [|destruct H]. destruct (flav_eqb (flav on) (flav ol)) eqn:E2; [|destruct H]. destruct H as [<-|[]].
  exists n, on, l, ol. auto 8.
Qed.
Lemma mentions_name n t : flags_fit t -> told_apart (parts t) -> mentions n t = true -> exists p, In p (parts t) /\ lname p = n.
Proof.
  intros HF HD H. unfold mentions in H. apply existsb_exists in H. destruct H as (r & Ir & H). apply existsb_exists in H. destruct H as (it & Iit & H).
  apply String.eqb_eq in H. destruct (reactions_sound _ _ _ r HF (told_distinct t HD) (reactions_of_ok t HF HD) Ir) as (sd & h & tl & rhs & _ & HP & _).
  apply (Permutation_in _ HP) in Iit. unfold placed in Iit. apply in_map_iff in Iit. destruct Iit as (w & Ew & Iw).
  rewrite <- Ew, to_side_specie in H. destruct (titems_specie t w Iw) as (p & Ip & Ep). exists p. split; [exact Ip|]. unfold lname. now rewrite <- Ep.
Qed.
Lemma told_library : told_apart (lib_leptons ++ lib_neutrinos).
Proof. intros x y Hx Hy. cbn in Hx, Hy. intuition (subst; cbn in *; auto; try discriminate). Qed.

Lemma add_leptons inters cnt E : complete E -> rep inters cnt -> rep (inters ++ lepton_interactions (leptons E) (neutrinos E)) cnt.
Proof.
  intros (_ & _ & _ & _ & _ & _ & IL & IN) (K0 & A & B & C).
  assert (Q : forall t, In t (lepton_interactions (leptons E) (neutrinos E)) -> flags_fit t /\ incl (parts t) (lib_leptons ++ lib_neutrinos)).
  { intros t H. apply lepton_interactions_in in H. destruct H as (n & on & l & ol & -> & H1 & H2 & H3 & H4 & _). split; [split; reflexivity|].
    apply others_incl in H2, H4. intros z [<-|[<-|[<-|[<-|[]]]]]; apply in_or_app; auto. }
  split; [|split; [|split]].
  - intros t I. apply in_app_or in I. destruct I as [I|I]; [auto|right; now exists (leptons E), (neutrinos E)].
  - intros m c I. rewrite count_occ_app, (A m c I). replace (count_occ tmpl_dec (lepton_interactions (leptons E) (neutrinos E)) c) with 0; [lia|].
    symmetry. apply count_occ_not_In. intros H. destruct (Q c H) as (_ & J).
    assert (K : In (lib_of m) (parts c)) by (revert I; destruct m; cbn; intuition (subst; cbn; auto)).
    apply J in K. revert K. destruct m; cbn; intuition discriminate.
  - intros m. rewrite already_there_app, B.
    destruct (already_there (lepton_interactions (leptons E) (neutrinos E)) (lname (lib_of m))) eqn:F; [|apply Bool.orb_false_r].
    exfalso. unfold already_there in F. apply existsb_exists in F. destruct F as (t & It & F). destruct (Q t It) as (HF & HI).
    destruct (mentions_name _ t HF (told_incl _ _ HI told_library) F) as (p & Ip & Ep). apply HI in Ip. revert Ip Ep.
    destruct m; cbn; intuition (subst; discriminate).
  - exact C.
Qed.

Lemma incr_ext cnt cnt' p : (forall m, cnt m = cnt' m) -> forall m, incr cnt p m = incr cnt' p m.
Proof. intros H m. unfold incr. rewrite H. reflexivity. Qed.
Lemma fill_none X cnt m : (forall m, X m = true -> 0 < cnt m) -> fill X cnt m = cnt m.
Proof. intros H. unfold fill. destruct (X m) eqn:E; [|reflexivity]. apply H in E. destruct (Nat.eqb_spec (cnt m) 0); [lia|reflexivity]. Qed.
Lemma fill_fill X Y cnt m : fill Y (fill X cnt) m = fill (fun k => X k || Y k) cnt m.
Proof. unfold fill. destruct (X m), (Y m), (Nat.eqb_spec (cnt m) 0); cbn; try reflexivity; destruct (Nat.eqb_spec (cnt m) 0); congruence. Qed.
Lemma fill_pos X cnt m : X m = true -> 0 < fill X cnt m.
Proof. intros E. unfold fill. rewrite E. destruct (Nat.eqb_spec (cnt m) 0); cbn; lia. Qed.
Lemma fill_le X cnt m : cnt m <= fill X cnt m.
Proof. unfold fill. destruct (X m), (Nat.eqb_spec (cnt m) 0); cbn; lia. Qed.

(* one decay function *)
Definition good (f : list tmpl -> result (list tmpl)) (p : meson) : Prop :=
  forall inters cnt, rep inters cnt -> exists out, f inters = Ok out /\ rep out (incr (fill (feedsb p) cnt) p).
Definition ensures (f : list tmpl -> result (list tmpl)) (X : meson -> bool) : Prop :=
  forall inters cnt, rep inters cnt -> exists out, f inters = Ok out /\ rep out (fill X cnt).

Lemma feedsb_irrefl p : feedsb p p = false. Proof. destruct p; reflexivity. Qed.
Lemma ensure_good f p : good f p -> ensures (unless_there (lname (lib_of p)) f) (clos p).
Proof.
  intros G inters cnt R. unfold unless_there. destruct R as (K & A & B & C). rewrite B. destruct (Nat.ltb_spec 0 (cnt p)) as [H|H].
  - exists inters. split; [reflexivity|]. apply (rep_ext _ cnt); [|split; [|split]; auto]. intros m. symmetry. apply fill_none. intros k. unfold clos.
    destruct (meson_dec k p) as [->|]; [auto|]. intros F. eauto.
  - destruct (G inters cnt) as (out & E & R'); [split; [|split]; auto|]. exists out. split; [exact E|]. eapply rep_ext; [|exact R']. intros m. unfold incr, fill, clos.
    destruct (meson_dec m p) as [->|N]; [|reflexivity]. rewrite feedsb_irrefl. cbn. destruct (Nat.eqb_spec (cnt p) 0); lia.
Qed.
Lemma ensures_bind f g X Y : ensures f X -> ensures g Y -> ensures (fun i => let* j := f i in g j) (fun k => X k || Y k).
Proof.
  intros F G inters cnt R. destruct (F inters cnt R) as (o1 & E1 & R1). destruct (G o1 _ R1) as (o2 & E2 & R2). exists o2. rewrite E1. cbn [rbind]. split; [exact E2|].
  eapply rep_ext; [|exact R2]. intros m. apply fill_fill.
Qed.
Lemma ensures_ext f X Y : (forall m, X m = Y m) -> ensures f X -> ensures f Y.
Proof.
  intros H F inters cnt R. destruct (F inters cnt R) as (o & E & R'). exists o. split; [exact E|]. eapply rep_ext; [|exact R']. intros m. unfold fill. now rewrite H.
Qed.
Lemma good_of f X p : ensures f X -> (forall m, X m = feedsb p m) -> good (fun i => let* j := f i in Ok (j ++ channels p)) p.
Proof.
  intros F HX inters cnt R. destruct (F inters cnt R) as (o & E & R'). exists (o ++ channels p). rewrite E. cbn [rbind]. split; [reflexivity|].
  assert (R2 : rep o (fill (feedsb p) cnt)) by (eapply rep_ext; [|exact R']; intros m; unfold fill; now rewrite HX).
  apply add_block; [exact R2|]. intros m F'. now apply fill_pos.
Qed.
Lemma good_ext f g p : (forall i, f i = g i) -> good f p -> good g p.
Proof. intros H G inters cnt R. rewrite <- H. auto. Qed.

Lemma var_named n l p : named n l = Some p -> var n l = Ok p.
Proof. intros H. unfold var. now rewrite H. Qed.
Lemma meson_var E m : complete E -> var (lname (lib_of m)) (mesons E) = Ok (lib_of m).
Proof. intros (H & _). apply var_named, H. Qed.
Lemma photon_var_ok E : complete E -> photon_var E = Ok photon.
Proof. intros (_ & _ & _ & _ & _ & H & _). unfold photon_var. destruct (photons E); [discriminate|]. cbn in H. congruence. Qed.

Lemma lepton_vars E : complete E -> var "Electron" (leptons E) = Ok electron /\ var "Muon" (leptons E) = Ok muon /\
  var "Electron neutrino" (neutrinos E) = Ok neutrino_e /\ var "Muon neutrino" (neutrinos E) = Ok neutrino_mu.
Proof. intros (_ & A & B & C & D & _). auto using var_named. Qed.

Lemma good_pi0 E : complete E -> good (neutral_pion_decay E) Mpi0.
Proof.
  intros HE. apply (good_ext (fun i => let* j := Ok i in Ok (j ++ channels Mpi0))).
  - intros i. unfold neutral_pion_decay. rewrite (meson_var E Mpi0 HE : var "Neutral pion" _ = _), (photon_var_ok E HE). reflexivity.
  - apply (good_of (fun i => Ok i) (fun _ => false)); [|intros m; destruct m; reflexivity].
    intros inters cnt R. exists inters. split; [reflexivity|]. exact R.
Qed.
Lemma good_pi E : complete E -> good (charged_pion_decay E) Mpi.
Proof.
  intros HE inters cnt R. unfold charged_pion_decay.
  rewrite (meson_var E Mpi HE : var "Charged pion" _ = _).
  assert (HE' := HE). destruct HE' as (_ & _ & HM & _ & HN & _). rewrite (var_named _ _ _ HM), (var_named _ _ _ HN). cbn [rbind].
  set (i := if negb _ then inters ++ _ else inters). assert (Ri : rep i cnt) by (unfold i; destruct (negb _); [now apply add_leptons|exact R]).
  exists (i ++ decay_charged_pion (lib_of Mpi) muon neutrino_mu). split; [reflexivity|].
  change (decay_charged_pion (lib_of Mpi) muon neutrino_mu) with (channels Mpi).
  eapply rep_ext; [|apply add_block; [exact Ri|intros m'; destruct m'; discriminate]]. intros m. apply incr_ext. intros k. unfold fill. destruct k; reflexivity.
Qed.
Definition pion_set (m : meson) : bool := clos Mpi m || clos Mpi0 m.
Lemma ensures_pions E : complete E -> ensures (pions E) pion_set.
Proof.
  intros HE. unfold pions. apply (ensures_bind (unless_there "Charged pion" (charged_pion_decay E)) (unless_there "Neutral pion" (neutral_pion_decay E))).
  - exact (ensure_good _ Mpi (good_pi E HE)).
  - exact (ensure_good _ Mpi0 (good_pi0 E HE)).
Qed.
Ltac vars HE :=
  repeat match goal with
  | |- context [var ?n (mesons ?E)] => first
      [ rewrite (meson_var E Mpi0 HE : var n _ = _) | rewrite (meson_var E Mpi HE : var n _ = _) | rewrite (meson_var E MK HE : var n _ = _)
      | rewrite (meson_var E MKL HE : var n _ = _) | rewrite (meson_var E MKS HE : var n _ = _) | rewrite (meson_var E Meta HE : var n _ = _)
      | rewrite (meson_var E Mrho0 HE : var n _ = _) | rewrite (meson_var E Mrho HE : var n _ = _) | rewrite (meson_var E Momega HE : var n _ = _)
      | rewrite (meson_var E Metap HE : var n _ = _) | rewrite (meson_var E Mphi HE : var n _ = _) ]
  | |- context [photon_var ?E] => rewrite (photon_var_ok E HE)
  | |- context [var _ (leptons ?E)] => first [rewrite (proj1 (lepton_vars E HE)) | rewrite (proj1 (proj2 (lepton_vars E HE)))]
  | |- context [var _ (neutrinos ?E)] => first [rewrite (proj1 (proj2 (proj2 (lepton_vars E HE)))) | rewrite (proj2 (proj2 (proj2 (lepton_vars E HE))))]
  end.
Ltac after_pions HE :=
  match goal with |- good (?f ?E) ?p => apply (good_ext (fun i => let* j := pions E i in Ok (j ++ channels p))) end;
  [intros i; unfold charged_kaon_decay, kaon_long_decay, kaon_short_decay, eta_decay, charged_rho_decay, omega_decay; destruct (pions _ i); cbn [rbind]; [|reflexivity]; vars HE; reflexivity
  |apply (good_of _ pion_set); [now apply ensures_pions|intros m; destruct m; reflexivity]].
Lemma good_K E : complete E -> good (charged_kaon_decay E) MK. Proof. intros HE. after_pions HE. Qed.
Lemma good_KL E : complete E -> good (kaon_long_decay E) MKL. Proof. intros HE. after_pions HE. Qed.
Lemma good_KS E : complete E -> good (kaon_short_decay E) MKS. Proof. intros HE. after_pions HE. Qed.
Lemma good_eta E : complete E -> good (eta_decay E) Meta. Proof. intros HE. after_pions HE. Qed.
Lemma good_rho E : complete E -> good (charged_rho_decay E) Mrho. Proof. intros HE. after_pions HE. Qed.
Lemma good_omega E : complete E -> good (omega_decay E) Momega. Proof. intros HE. after_pions HE. Qed.
Lemma good_rho0 E : complete E -> good (neutral_rho_decay E) Mrho0.
Proof.
  intros HE. apply (good_ext (fun i => let* j := unless_there "Charged pion" (charged_pion_decay E) i in Ok (j ++ channels Mrho0))).
  - intros i. unfold neutral_rho_decay. destruct (unless_there _ _ i); cbn [rbind]; [|reflexivity]. vars HE. reflexivity.
  - apply (good_of _ (clos Mpi)); [exact (ensure_good _ Mpi (good_pi E HE))|intros m; destruct m; reflexivity].
Qed.
Lemma good_etap E : complete E -> good (eta_prime_decay E) Metap.
Proof.
  intros HE. apply (good_ext (fun i => let* j := (let* a := unless_there "Neutral rho" (neutral_rho_decay E) i in let* b := unless_there "Eta" (eta_decay E) a in pions E b) in Ok (j ++ channels Metap))).
  - intros i. unfold eta_prime_decay. destruct (unless_there _ _ i); cbn [rbind]; [|reflexivity]. destruct (unless_there _ _ _); cbn [rbind]; [|reflexivity].
    destruct (pions _ _); cbn [rbind]; [|reflexivity]. vars HE. reflexivity.
  - apply (good_of _ (fun k => clos Mrho0 k || (clos Meta k || pion_set k))); [|intros m; destruct m; reflexivity].
    apply (ensures_bind (unless_there "Neutral rho" (neutral_rho_decay E)) (fun a => let* b := unless_there "Eta" (eta_decay E) a in pions E b)).
    + exact (ensure_good _ Mrho0 (good_rho0 E HE)).
    + apply (ensures_bind (unless_there "Eta" (eta_decay E)) (pions E)); [exact (ensure_good _ Meta (good_eta E HE))|now apply ensures_pions].
Qed.
Lemma good_phi E : complete E -> good (phi_decay E) Mphi.
Proof.
  intros HE. apply (good_ext (fun i => let* j := (let* a := unless_there "Neutral rho" (neutral_rho_decay E) i in
      let* b := unless_there "Charged kaon" (charged_kaon_decay E) a in let* c := unless_there "Kaon long" (kaon_long_decay E) b in
      let* d := unless_there "Kaon short" (kaon_short_decay E) c in unless_there "Neutral pion" (neutral_pion_decay E) d) in Ok (j ++ channels Mphi))).
  - intros i. unfold phi_decay. destruct (unless_there _ _ i); cbn [rbind]; [|reflexivity]. do 4 (destruct (unless_there _ _ _); cbn [rbind]; [|reflexivity]).
    vars HE. reflexivity.
  - apply (good_of _ (fun k => clos Mrho0 k || (clos MK k || (clos MKL k || (clos MKS k || clos Mpi0 k))))); [|intros m; destruct m; reflexivity].
    refine (ensures_bind _ _ _ _ (ensure_good _ Mrho0 (good_rho0 E HE)) _).
    refine (ensures_bind _ _ _ _ (ensure_good _ MK (good_K E HE)) _).
    refine (ensures_bind _ _ _ _ (ensure_good _ MKL (good_KL E HE)) _).
    refine (ensures_bind _ _ _ _ (ensure_good _ MKS (good_KS E HE)) _).
    exact (ensure_good _ Mpi0 (good_pi0 E HE)).
Qed.
Lemma good_primary E p : complete E -> good (primary_decay E (lname (lib_of p))) p.
Proof.
  intros HE. destruct p; cbv [primary_decay]; cbn [lib_of];
    [apply good_pi0|apply good_pi|apply good_K|apply good_KL|apply good_KS|apply good_eta|apply good_rho0|apply good_rho|apply good_omega|apply good_etap|apply good_phi]; exact HE.
Qed.

(* ------------------------------------------------------------------ *)
Definition run (ps : list meson) (cnt : meson -> nat) : meson -> nat := fold_left (fun c p => incr (fill (feedsb p) c) p) ps cnt.
Lemma rep_nil : rep [] (fun _ => 0).
Proof. split; [intros t []|split; [|split]]; [reflexivity|reflexivity|intros p m _ H; lia]. Qed.
Lemma meson_interactions_rep E : complete E -> forall ps inters cnt, rep inters cnt ->
  exists out, rfold (fun i m => primary_decay E (lname m) i) inters (map lib_of ps) = Ok out /\ rep out (run ps cnt).
Proof.
  intros HE ps. induction ps as [|p ps IH]; intros inters cnt R; cbn [map rfold run fold_left].
  - exists inters. auto.
  - destruct (good_primary E p HE inters cnt R) as (o & Eo & Ro). rewrite Eo. cbn [rbind]. exact (IH o _ Ro).
Qed.
Lemma run_pos ps : forall cnt m, 0 < cnt m -> run ps cnt m = cnt m + count_occ meson_dec ps m.
Proof.
  induction ps as [|p ps IH]; intros cnt m H; cbn [run fold_left count_occ]; [lia|].
  assert (G : incr (fill (feedsb p) cnt) p m = cnt m + (if meson_dec p m then 1 else 0)).
  { unfold incr. assert (F : fill (feedsb p) cnt m = cnt m) by (unfold fill; destruct (Nat.eqb_spec (cnt m) 0); [lia|]; now rewrite Bool.andb_false_r).
    rewrite F. destruct (meson_dec m p), (meson_dec p m); try congruence; lia. }
  unfold run in IH. rewrite IH by lia. rewrite G. destruct (meson_dec p m); lia.
Qed.
Lemma pulled_cons m p ps : pulled m (p :: ps) <-> chain p m \/ p <> m /\ pulled m ps.
Proof.
  split.
  - intros (l1 & q & l2 & E & C & N). destruct l1 as [|a l1]; cbn in E; injection E as -> ->; [now left|]. right. cbn in N. split; [tauto|].
    exists l1, q, l2. tauto.
  - intros [C|(N & l1 & q & l2 & -> & C & N1)]; [exists [], p, ps; cbn; auto|]. exists (p :: l1), q, l2. cbn. tauto.
Qed.
Lemma run_zero ps : forall cnt m, cnt m = 0 ->
  (pulled m ps -> run ps cnt m = S (count_occ meson_dec ps m)) /\ (~ pulled m ps -> run ps cnt m = count_occ meson_dec ps m).
Proof.
  induction ps as [|p ps IH]; intros cnt m H.
  - cbn. split; [|auto]. intros (l1 & q & l2 & E & _). destruct l1; discriminate.
  - cbn [run fold_left count_occ]. rewrite pulled_cons. change (fold_left _ ps ?c) with (run ps c).
    destruct (feedsb p m) eqn:F.
    + assert (N : p <> m) by (intros ->; now rewrite feedsb_irrefl in F).
      assert (G : incr (fill (feedsb p) cnt) p m = 1).
      { unfold incr, fill. rewrite F, H. cbn. destruct (meson_dec m p); congruence. }
      rewrite run_pos by lia. rewrite G. destruct (meson_dec p m); [contradiction|]. split; [lia|]. intros K. exfalso. apply K. left. now apply chain_feeds.
    + destruct (meson_dec p m) as [->|N].
      * assert (G : incr (fill (feedsb m) cnt) m m = 1) by (unfold incr, fill; rewrite F, H; cbn; destruct (meson_dec m m); congruence).
        rewrite run_pos by lia. rewrite G. split; [|lia]. intros [C|(C & _)]; [apply chain_feeds in C; congruence|congruence].
      * assert (G : incr (fill (feedsb p) cnt) p m = 0) by (unfold incr, fill; rewrite F, H; cbn; destruct (meson_dec m p); congruence).
        destruct (IH _ m G) as (I1 & I2). split.
        -- intros [C|(_ & C)]; [apply chain_feeds in C; congruence|auto].
        -- intros K. apply I2. tauto.
Qed.

Lemma meson_interactions_count E ps : complete E -> exists out, meson_interactions E (map lib_of ps) = Ok out /\ (forall t, In t out -> known t) /\
  forall m c, In c (channels m) ->
    (pulled m ps -> count_occ tmpl_dec out c = S (count_occ meson_dec ps m)) /\
    (~ pulled m ps -> count_occ tmpl_dec out c = count_occ meson_dec ps m).
Proof.
  intros HE. destruct (meson_interactions_rep E HE ps [] (fun _ => 0) rep_nil) as (out & Eo & (K & A & _)). exists out. split; [exact Eo|]. split; [exact K|].
  intros m c I. rewrite (A m c I). now apply run_zero.
Qed.
