From Coq Require Import Permutation.
From Verif Require Import Base CrossModel CrossProofs CrossProofs2 LibModel LibProofs Lib2Proofs.

Lemma flav_eqb_eq a b : flav_eqb a b = true <-> a = b.
Proof. destruct a as [[]|], b as [[]|]; cbn; split; congruence. Qed.

(* ---------- enumeration of the interactions ---------- *)
Lemma cwr2_in {A} (l : list A) a b : In (a, b) (cwr2 l) <-> exists l1 l2, l = l1 ++ a :: l2 /\ In b (a :: l2).
Proof.
  induction l as [|x l IH]; cbn [cwr2].
  - split; [intros []|]. intros (l1 & l2 & E & _). destruct l1; discriminate.
  - rewrite in_app_iff, in_map_iff, IH. split.
    + intros [(y & E & I)|(l1 & l2 & -> & I)].
      * injection E as <- <-. exists [], l. auto.
      * exists (x :: l1), l2. auto.
    + intros (l1 & l2 & E & I). destruct l1 as [|z l1]; cbn in E; injection E as <- ->.
      * left. exists b. auto.
      * right. exists l1, l2. auto.
Qed.
Lemma cwr2_length {A} (l : list A) : 2 * length (cwr2 l) = length l * (length l + 1).
Proof. induction l as [|x l IH]; [reflexivity|]. cbn [cwr2]. rewrite app_length, map_length. cbn [length]. nia. Qed.
Lemma cwr2_nodup {A} (l : list A) : NoDup l -> NoDup (cwr2 l).
Proof.
  induction 1 as [|x l N ND IH]; [constructor|]. cbn [cwr2].
  assert (G : forall a b : list (A * A), NoDup a -> NoDup b -> (forall z, In z a -> ~ In z b) -> NoDup (a ++ b)).
  { induction a as [|z a IHa]; intros b Na Nb D; [exact Nb|]. inversion Na; subst. cbn. constructor.
    - rewrite in_app_iff. intros [I|I]; [contradiction|]. now apply (D z (or_introl eq_refl)).
    - apply IHa; auto. intros w Iw. apply D. now right. }
  apply G; [|exact IH|].
  - apply FinFun.Injective_map_NoDup; [intros u v E; now injection E|]. now constructor.
  - intros (u & v) I J. apply in_map_iff in I. destruct I as (w & E & _). injection E as <- <-. apply cwr2_in in J. destruct J as (l1 & l2 & -> & _).
    apply N. apply in_or_app. right. now left.
Qed.
Lemma cwr2_once {A} (l : list A) a b : NoDup l -> In a l -> In b l -> a <> b ->
  (In (a, b) (cwr2 l) /\ ~ In (b, a) (cwr2 l)) \/ (In (b, a) (cwr2 l) /\ ~ In (a, b) (cwr2 l)).
Proof.
  induction l as [|x l IH]; intros N Ia Ib Hn; [destruct Ia|]. inversion N as [|? ? N1 N2]; subst.
  assert (C : forall u v, In (u, v) (cwr2 (x :: l)) <-> (u = x /\ (v = x \/ In v l)) \/ In (u, v) (cwr2 l)).
  { intros u v. cbn [cwr2]. rewrite in_app_iff, in_map_iff. split.
    - intros [(y & E & [->|I])|I]; [injection E as <- <-; auto|injection E as <- <-; auto|auto].
    - intros [(-> & [->|I])|I]; [left; exists x; cbn; auto|left; exists v; cbn; auto|auto]. }
  assert (D : forall u v, In (u, v) (cwr2 l) -> In u l /\ In v l).
  { intros u v I. apply cwr2_in in I. destruct I as (l1 & l2 & -> & I). split; apply in_or_app; right; [now left|exact I]. }
  rewrite !C. destruct Ia as [->|Ia], Ib as [->|Ib].
  - congruence.
  - left. split; [left; auto|]. intros [(-> & _)|I]; [congruence|]. apply D in I. tauto.
  - right. split; [left; auto|]. intros [(-> & _)|I]; [congruence|]. apply D in I. tauto.
  - destruct (IH N2 Ia Ib Hn) as [(I & J)|(I & J)]; [left|right]; (split; [right; exact I|]); intros [(-> & _)|K]; tauto.
Qed.
Lemma neutrino_interactions_in ls ns t : In t (neutrino_interactions ls ns) <->
  (exists a b, In (a, b) (cwr2 ns) /\ t = neutrino_scattering a b) \/ (exists l n, In l ls /\ In n ns /\ t = neutrinos_to_leptons n l).
Proof.
  unfold neutrino_interactions. rewrite in_app_iff, in_map_iff, in_flat_map. split.
  - intros [((a & b) & <- & I)|(l & Il & I)]; [left; exists a, b; auto|]. apply in_map_iff in I. destruct I as (n & <- & I). right. exists l, n. auto.
  - intros [(a & b & I & ->)|(l & n & Il & I & ->)]; [left; exists (a, b); auto|right]. exists l. split; [exact Il|]. apply in_map_iff. exists n. auto.
Qed.
Lemma others_in x l y : In y (others x l) <-> In y l /\ sid (sp y) <> sid (sp x).
Proof. unfold others. rewrite filter_In, Bool.negb_true_iff, Nat.eqb_neq. tauto. Qed.
Lemma others_length_nonempty x l y : In x l -> In y (others x l) -> 1 < length l.
Proof.
  intros Ix Iy. apply others_in in Iy. destruct Iy as (Iy & N). destruct l as [|a [|b l]]; cbn; try lia; [destruct Ix|].
  destruct Ix as [->|[]], Iy as [->|[]]. congruence.
Qed.
Lemma lepton_interactions_iff ls ns t : In t (lepton_interactions ls ns) <-> exists n on l ol,
  t = leptons_CC n on l ol /\ In n ns /\ In on ns /\ In l ls /\ In ol ls /\ sid (sp on) <> sid (sp n) /\ sid (sp ol) <> sid (sp l) /\ flav n = flav l /\ flav on = flav ol.
Proof.
  split.
  - intros H. apply lepton_interactions_in in H. destruct H as (n & on & l & ol & -> & A & B & C & D & E & F). apply others_in in B, D. apply flav_eqb_eq in E, F.
    exists n, on, l, ol. tauto.
  - intros (n & on & l & ol & -> & A & B & C & D & Nn & Nl & E & F). unfold lepton_interactions.
    assert (Bo : In on (others n ns)) by (apply others_in; auto). assert (Do : In ol (others l ls)) by (apply others_in; auto).
    apply in_flat_map. exists l. split; [exact C|]. apply in_flat_map. exists n. split; [exact A|].
    rewrite (proj2 (Nat.ltb_lt _ _) (others_length_nonempty l ls ol C Do)), (proj2 (Nat.ltb_lt _ _) (others_length_nonempty n ns on A Bo)). cbn [andb].
    apply in_flat_map. exists ol. split; [exact Do|]. apply in_flat_map. exists on. split; [exact Bo|].
    rewrite (proj2 (flav_eqb_eq _ _) E), (proj2 (flav_eqb_eq _ _) F). now left.
Qed.

(* ---------- additive charges ---------- *)
Lemma neutrino_interactions_balanced w ls ns t : In t (neutrino_interactions ls ns) -> balanced w t.
Proof.
  intros H. apply neutrino_interactions_in in H. destruct H as [(a & b & _ & ->)|(l & n & _ & _ & ->)]; unfold balanced; cbn [tally neutrino_scattering neutrinos_to_leptons tmpl22 tparts tflags fst snd]; lia.
Qed.
Lemma lepton_interactions_balanced w ls ns t k : (forall l n, In l ls -> In n ns -> flav n = flav l -> w l = (w n + k)%Z) ->
  In t (lepton_interactions ls ns) -> balanced w t.
Proof.
  intros H I. apply lepton_interactions_iff in I. destruct I as (n & on & l & ol & -> & A & B & C & D & _ & _ & E & F).
  pose proof (H l n C A E). pose proof (H ol on D B F). unfold balanced; cbn [tally leptons_CC tmpl22 tparts tflags fst snd]. lia.
Qed.
Lemma fit_neutrino ls ns t : In t (neutrino_interactions ls ns ++ lepton_interactions ls ns) -> flags_fit t /\ incl (parts t) (ls ++ ns).
Proof.
  intros H. apply in_app_or in H. destruct H as [H|H].
  - apply neutrino_interactions_in in H. destruct H as [(a & b & I & ->)|(l & n & Il & In' & ->)]; (split; [split; reflexivity|]).
    + apply cwr2_in in I. destruct I as (l1 & l2 & -> & I).
      assert (Ia : In a (l1 ++ a :: l2)) by (apply in_or_app; right; now left). assert (Ib : In b (l1 ++ a :: l2)) by (apply in_or_app; right; exact I).
      intros z [<-|[<-|[<-|[<-|[]]]]]; apply in_or_app; auto.
    + intros z [<-|[<-|[<-|[<-|[]]]]]; apply in_or_app; auto.
  - apply lepton_interactions_iff in H. destruct H as (n & on & l & ol & -> & A & B & C & D & _). split; [split; reflexivity|].
    intros z [<-|[<-|[<-|[<-|[]]]]]; apply in_or_app; auto.
Qed.

(* sterile neutrinos *)
Lemma sterile_leptons_in mix s ns ls i : In i (sterile_leptons_interactions mix s ns ls) ->
  (exists a b, In a ns /\ In b ns /\ (fst i = fst (sterile_active_scattering s a b) \/ fst i = snd (sterile_active_scattering s a b))) \/
  (exists n l, In n ns /\ In l ls /\ (fst i = fst (sterile_NC s n l) \/ fst i = snd (sterile_NC s n l))) \/
  (exists n l ol, In n ns /\ In l ls /\ In ol ls /\ flav n = flav ol /\ sid (sp ol) <> sid (sp l) /\ (fst i = fst (sterile_CC s n l ol) \/ fst i = snd (sterile_CC s n l ol))).
Proof.
  unfold sterile_leptons_interactions. intros H. apply in_app_or in H. destruct H as [H|H].
  - left. apply in_flat_map in H. destruct H as ((a & b) & I & H). apply in_prod_iff in I. cbn [fst snd] in H. destruct (mix (flav a)); [|destruct H].
    exists a, b. split; [tauto|]. split; [tauto|]. unfold scattering_pair in H. destruct (sterile_active_scattering s a b) as (t0 & t1). cbn [fst snd plain].
    destruct H as [<-|[<-|[]]]; auto.
  - right. apply in_flat_map in H. destruct H as (l & Il & H). apply in_flat_map in H. destruct H as (n & In' & H). apply in_app_or in H. destruct H as [H|H].
    + left. destruct (mix (flav n)); [|destruct H]. exists n, l. split; [exact In'|]. split; [exact Il|]. unfold nc_pair in H. destruct (sterile_NC s n l) as (t0 & t1). cbn [fst snd].
      destruct (_ || _) in H; destruct H as [<-|[<-|[]]]; auto.
    + right. destruct (1 <? length ls); [|destruct H]. apply in_flat_map in H. destruct H as (ol & Io & H). apply others_in in Io.
      destruct (mix (flav l)); [|destruct H]. destruct (flav_eqb (flav n) (flav ol)) eqn:E; [|destruct H]. apply flav_eqb_eq in E. cbn [andb] in H.
      exists n, l, ol. unfold cc_pair in H. destruct (sterile_CC s n l ol) as (t0 & t1). cbn [fst snd].
      repeat (split; [tauto|]). destruct H as [<-|[<-|[]]]; auto.
Qed.
Lemma traverse_in {A B} (f : A -> result B) l out y : traverse f l = Ok out -> In y out -> exists x, In x l /\ f x = Ok y.
Proof.
  revert out. induction l as [|x l IH]; intros out E I; cbn [traverse] in E; [injection E as <-; destruct I|].
  destruct (f x) eqn:Fx; [|discriminate]. cbn [rbind] in E. destruct (traverse f l) eqn:T; [|discriminate]. cbn [rbind] in E. injection E as <-.
  destruct I as [<-|I]; [exists x; split; [now left|exact Fx]|]. destruct (IH _ eq_refl I) as (z & Iz & Ez). exists z. split; [now right|exact Ez].
Qed.
Lemma sterile_quarks_in mix s ns ls qs out t : sterile_quark_interactions mix s ns ls qs = Ok out -> In t out ->
  (exists q n, In q qs /\ In n ns /\ t = sterile_quark_neutral s n q) \/
  (exists u d l, In u qs /\ In d qs /\ In l ls /\ Q3 u = 2%Z /\ Q3 d = (-1)%Z /\ t = sterile_quark_charged s l u d).
Proof.
  unfold sterile_quark_interactions. destruct (traverse _ _) as [nsx|] eqn:T; [|discriminate]. cbn [rbind]. intros E I. injection E as <-. apply in_app_or in I. destruct I as [I|I].
  - left. apply in_concat in I. destruct I as (x & Ix & It). destruct (traverse_in _ _ _ _ T Ix) as ((q & n) & Iqn & Eq). apply in_prod_iff in Iqn. cbn [fst snd] in Eq.
    destruct (mix (flav n)); [|injection Eq as <-; destruct It]. destruct (_ || _) in Eq; [|discriminate]. injection Eq as <-. destruct It as [<-|[]]. exists q, n. tauto.
  - right. apply in_flat_map in I. destruct I as ((u & d) & Iud & I). apply in_prod_iff in Iud. rewrite !filter_In, !Z.eqb_eq in Iud. apply in_flat_map in I. destruct I as (l & Il & I). cbn [fst snd] in I.
    destruct (mix (flav l)); [|destruct I]. destruct I as [<-|[]]. exists u, d, l. tauto.
Qed.

(* the particles of the mesons' decays *)
Definition lib_all : list lib := [photon; neutral_pion; charged_pion; charged_kaon; kaon_long; kaon_short; eta; charged_rho; neutral_rho; omega; eta_prime; phi;
  neutrino_e; neutrino_mu; neutrino_tau; electron; muon; tau].
Lemma nodup_told (l : list lib) : NoDup (map (fun p => sid (sp p)) l) -> NoDup (map lname l) -> told_apart l.
Proof.
  intros N1 N2 x y Ix Iy H.
  assert (G : forall (B : Type) (g : lib -> B) l, NoDup (map g l) -> In x l -> In y l -> g x = g y -> x = y).
  { intros B g. induction l0 as [|z l0 IH]; intros N Jx Jy E; [destruct Jx|]. cbn in N. inversion N as [|? ? M1 M2]; subst.
    destruct Jx as [->|Jx], Jy as [->|Jy]; [reflexivity| | |auto].
    - exfalso. apply M1. rewrite E. now apply in_map.
    - exfalso. apply M1. rewrite <- E. now apply in_map. }
  destruct H as [H|H]; f_equal; [exact (G _ _ l N1 Ix Iy H)|exact (G _ _ l N2 Ix Iy H)].
Qed.
Fixpoint nodupb {A} (eqb : A -> A -> bool) (l : list A) : bool := match l with [] => true | x :: t => negb (existsb (eqb x) t) && nodupb eqb t end.
Lemma nodupb_ok {A} (eqb : A -> A -> bool) (H : forall x y, eqb x y = true <-> x = y) l : nodupb eqb l = true -> NoDup l.
Proof.
  induction l as [|x l IH]; intros E; [constructor|]. cbn in E. apply andb_prop in E. destruct E as (E1 & E2). constructor; [|auto].
  intros I. apply Bool.negb_true_iff in E1. assert (T : existsb (eqb x) l = true) by (apply existsb_exists; exists x; split; [exact I|now apply H]). congruence.
Qed.
Lemma told_all : told_apart lib_all.
Proof. apply nodup_told; [apply (nodupb_ok Nat.eqb Nat.eqb_eq)|apply (nodupb_ok String.eqb String.eqb_eq)]; vm_compute; reflexivity. Qed.
Lemma in_all_mesons m : In m all_mesons. Proof. destruct m; cbn; tauto. Qed.
Lemma by_table (P : meson -> tmpl -> bool) : forallb (fun m => forallb (P m) (channels m)) all_mesons = true -> forall m c, In c (channels m) -> P m c = true.
Proof.
  intros H m c I. rewrite forallb_forall in H. specialize (H m (in_all_mesons m)). rewrite forallb_forall in H. now apply H.
Qed.
Definition inb (p : lib) (l : list lib) : bool := existsb (fun x => if lib_dec x p then true else false) l.
Lemma inb_in p l : inb p l = true <-> In p l.
Proof.
  unfold inb. rewrite existsb_exists. split.
  - intros (x & I & H). destruct (lib_dec x p) as [->|]; [exact I|discriminate].
  - intros I. exists p. split; [exact I|]. destruct (lib_dec p p); congruence.
Qed.
Lemma channels_fit m c : In c (channels m) -> flags_fit c /\ incl (parts c) lib_all.
Proof.
  intros I. assert (G := by_table (fun _ c => (length (fst (tparts c)) =? length (fst (tflags c))) && (length (snd (tparts c)) =? length (snd (tflags c))) && forallb (fun p => inb p lib_all) (parts c))).
  assert (T := G ltac:(vm_compute; reflexivity) m c I). apply andb_prop in T. destruct T as (T & T3). apply andb_prop in T. destruct T as (T1 & T2).
  apply Nat.eqb_eq in T1, T2. split.
  - unfold flags_fit, flags_ok, species_of. cbn [fst snd]. rewrite !map_length. auto.
  - intros p Ip. rewrite forallb_forall in T3. apply inb_in. now apply T3.
Qed.
Lemma lib_all_majorana p : In p lib_all -> majorana (sp p) = true -> Q3 p = 0%Z.
Proof. cbn. intuition (subst; cbn in *; auto; discriminate). Qed.
(* the charge of a species, read from the table *)
Definition charge_of (s : specie) : Z := match find (fun p => sid (sp p) =? sid s) (neutron :: proton :: lib_all) with Some p => Q3 p | None => 0%Z end.
Lemma charge_of_lib p : In p (neutron :: proton :: lib_all) -> charge_of (sp p) = Q3 p.
Proof. cbn [In lib_all]. intros H. repeat (destruct H as [<-|H]; [reflexivity|]). destruct H. Qed.
