(* C146: the particle tables against the quantum numbers of the particles. *)
From Coq Require Import Lia Permutation.
From Verif Require Import Base CrossModel LibModel TableModel.
Open Scope Z_scope.
Local Notation length := List.length.

(* What the particles are. A constituent is a quark flavour and whether it is the
   antiquark. A self-conjugate meson is a superposition, of which one term is
   given: it is its own antiparticle although that term is not. Spins are in
   halves. *)
Inductive quark := U | D | S | C | B | T.
Inductive kind :=
  | Gauge (colours : Z)                        (* massless vector, its own antiparticle *)
  | ActiveNu                                   (* one helicity, a distinct antiparticle *)
  | ChargedLepton
  | SterileNu (own_antiparticle : bool)
  | Quark (q : quark)
  | Hadron (content : list (quark * bool)) (twice_spin : Z) (superposition : bool).
Definition helicities (k : kind) : Z :=
  match k with Gauge _ => 2 | ActiveNu => 1 | ChargedLepton => 2 | SterileNu _ => 2 | Quark _ => 2 | Hadron _ s _ => s + 1 end.
Definition colours (k : kind) : Z := match k with Gauge c => c | Quark _ => 3 | _ => 1 end.
Definition own_antiparticle (k : kind) : bool := match k with Gauge _ => true | SterileNu b => b | Hadron _ _ b => b | _ => false end.
Definition states (k : kind) : Z := helicities k * colours k * (if own_antiparticle k then 1 else 2).
Definition fermionic (k : kind) : bool := match k with Gauge _ => false | Hadron c _ _ => Nat.odd (length c) | _ => true end.
Definition quark_charge (q : quark) : Z := match q with U | C | T => 2 | D | S | B => -1 end.
Definition charge (k : kind) : Z :=
  match k with
  | ChargedLepton => -3 | Quark q => quark_charge q
  | Hadron c _ _ => fold_right Z.add 0 (map (fun x : quark * bool => if snd x then - quark_charge (fst x) else quark_charge (fst x)) c)
  | _ => 0
  end.
Definition q_ (q : quark) := (q, false). Definition anti (q : quark) := (q, true).
(* with the names of the library; measured masses in keV *)
Definition identity : list (string * kind * Z) :=
  [("Photon", Gauge 1, 0); ("Gluon", Gauge 8, 0);
   ("Neutron", Hadron [q_ U; q_ D; q_ D] 1 false, 939565); ("Proton", Hadron [q_ U; q_ U; q_ D] 1 false, 938272);
   ("Neutral pion", Hadron [q_ U; anti U] 0 true, 134977); ("Charged pion", Hadron [q_ D; anti U] 0 false, 139570);
   ("Charged kaon", Hadron [q_ S; anti U] 0 false, 493677); ("Kaon long", Hadron [q_ S; anti D] 0 true, 497611);
   ("Kaon short", Hadron [q_ S; anti D] 0 true, 497611); ("Eta", Hadron [q_ S; anti S] 0 true, 547862);
   ("Charged rho", Hadron [q_ D; anti U] 2 false, 775110); ("Neutral rho", Hadron [q_ U; anti U] 2 true, 775260);
   ("Omega", Hadron [q_ U; anti U] 2 true, 782660); ("Eta prime", Hadron [q_ S; anti S] 0 true, 957780);
   ("Phi", Hadron [q_ S; anti S] 2 true, 1019461);
   ("Electron neutrino", ActiveNu, 0); ("Muon neutrino", ActiveNu, 0); ("Tau neutrino", ActiveNu, 0);
   ("Electron", ChargedLepton, 511); ("Muon", ChargedLepton, 105658); ("Tau", ChargedLepton, 1776860);
   ("Up quark", Quark U, 2160); ("Down quark", Quark D, 4670); ("Charm quark", Quark C, 1270000);
   ("Strange quark", Quark S, 93400); ("Top quark", Quark T, 172690000); ("Bottom quark", Quark B, 4180000);
   ("Sterile neutrino (Majorana)", SterileNu true, 0); ("Sterile neutrino (Dirac)", SterileNu false, 0)]%string.
Definition is_kind (n : string) (k : kind) : Prop := exists m, In (n, k, m) identity.
(* the particles of the library: the tables, and sterile neutrinos of every mass *)
Definition particle_of_library (p : lib) : Prop :=
  In p SM_table \/ exists id m, p = sterile_neutrino id m \/ p = dirac_sterile_neutrino id m.
(* proof machinery: looking an identity up *)
Fixpoint find_id (n : string) (l : list (string * kind * Z)) : option (kind * Z) :=
  match l with [] => None | (n', k, m) :: l' => if String.eqb n n' then Some (k, m) else find_id n l' end.
Fixpoint nodup_str (l : list string) : bool := match l with [] => true | x :: l' => negb (existsb (String.eqb x) l') && nodup_str l' end.
Lemma nodup_str_ok l : nodup_str l = true -> NoDup l.
Proof.
  induction l as [|x l IH]; cbn; intros H; [constructor|]. apply andb_true_iff in H. destruct H as [H1 H2]. constructor; [|now apply IH].
  intros I. apply negb_true_iff in H1. assert (existsb (String.eqb x) l = true) by (apply existsb_exists; exists x; split; [exact I|apply String.eqb_refl]). congruence.
Qed.
Lemma find_id_ok l : nodup_str (map (fun x => fst (fst x)) l) = true -> forall n k m, In (n, k, m) l <-> find_id n l = Some (k, m).
Proof.
  induction l as [|[[n' k'] m'] l IH]; cbn; intros H n k m; [split; [tauto|discriminate]|].
  apply andb_true_iff in H. destruct H as [H1 H2]. specialize (IH H2 n k m). apply negb_true_iff in H1.
  destruct (String.eqb n n') eqn:E.
  - apply String.eqb_eq in E. subst n'. split.
    + intros [J|J]; [congruence|]. exfalso. assert (existsb (String.eqb n) (map (fun x => fst (fst x)) l) = true); [|congruence].
      apply existsb_exists. exists n. split; [|apply String.eqb_refl]. apply in_map_iff. now exists (n, k, m).
    + intros J. left. congruence.
  - apply String.eqb_neq in E. rewrite <- IH. split; [intros [J|J]; [congruence|exact J]|now right].
Qed.
Lemma identity_find n k m : In (n, k, m) identity <-> find_id n identity = Some (k, m).
Proof. apply find_id_ok. vm_compute. reflexivity. Qed.
Lemma by_table (P : lib -> kind -> Z -> Prop) (f : lib -> kind -> Z -> bool) :
  (forall p k m, f p k m = true -> P p k m) ->
  forallb (fun p => match find_id (lname p) identity with Some (k, m) => f p k m | None => true end) SM_table = true ->
  forall p k m, In p SM_table -> In (lname p, k, m) identity -> P p k m.
Proof. intros HP F p k m I J. apply identity_find in J. rewrite forallb_forall in F. specialize (F p I). rewrite J in F. now apply HP. Qed.
(* vacuity guard: every particle has exactly one identity *)
Theorem C146_identified : forall p, particle_of_library p -> exists k, is_kind (lname p) k /\ forall k', is_kind (lname p) k' -> k' = k.
Proof.
  intros p H. assert (G : exists x, find_id (lname p) identity = Some x).
  { destruct H as [I|(id & m & [->| ->])]; [|eexists; vm_compute; reflexivity..].
    assert (F : forallb (fun p => match find_id (lname p) identity with Some _ => true | None => false end) SM_table = true) by (vm_compute; reflexivity).
    rewrite forallb_forall in F. specialize (F p I). destruct (find_id (lname p) identity) as [x|]; [now exists x|discriminate]. }
  destruct G as ((k & m) & G). exists k. split; [exists m; now apply identity_find|]. intros k' [m' J]. apply identity_find in J. congruence.
Qed.
Print Assumptions C146_identified.
Lemma library_kind (P : lib -> kind -> Prop) (f : lib -> kind -> bool) :
  (forall p k, f p k = true -> P p k) ->
  forallb (fun p => match find_id (lname p) identity with Some (k, m) => f p k | None => true end) SM_table = true ->
  (forall id m, P (sterile_neutrino id m) (SterileNu true)) -> (forall id m, P (dirac_sterile_neutrino id m) (SterileNu false)) ->
  forall p k, particle_of_library p -> is_kind (lname p) k -> P p k.
Proof.
  intros HP F H1 H2 p k H [m J]. destruct H as [I|(id & m' & [->| ->])].
  - revert p k m I J. apply (by_table (fun p k _ => P p k) (fun p k _ => f p k)); [intros; now apply HP|exact F].
  - apply identity_find in J. vm_compute in J. injection J as <- _. apply H1.
  - apply identity_find in J. vm_compute in J. injection J as <- _. apply H2.
Qed.
Definition stat_eqb (a b : stat) : bool := match a, b with Fermion, Fermion | Boson, Boson => true | _, _ => false end.
Lemma stat_eqb_eq a b : stat_eqb a b = true -> a = b. Proof. destruct a, b; cbn; congruence. Qed.

(* the degrees of freedom are the spin states times the colours, with the
   antiparticle counted if there is one; the majorana flag says whether there is;
   the statistics is that of the number of constituents *)
Theorem C146_states : forall p k, particle_of_library p -> is_kind (lname p) k ->
  ldof p = states k /\ majorana (sp p) = own_antiparticle k /\ statistics p = if fermionic k then Fermion else Boson.
Proof.
  apply (library_kind _ (fun p k => (ldof p =? states k) && Bool.eqb (majorana (sp p)) (own_antiparticle k) && stat_eqb (statistics p) (if fermionic k then Fermion else Boson))).
  - intros p k H. apply andb_true_iff in H. destruct H as [H H3]. apply andb_true_iff in H. destruct H as [H1 H2].
    apply Z.eqb_eq in H1. apply Bool.eqb_prop in H2. apply stat_eqb_eq in H3. auto.
  - vm_compute. reflexivity.
  - intros id m. repeat split.
  - intros id m. repeat split.
Qed.
Print Assumptions C146_states.
(* spin and statistics agree, and a particle that is its own antiparticle is neutral *)
Theorem C146_consistent : forall p k, particle_of_library p -> is_kind (lname p) k ->
  (forall c s b, k = Hadron c s b -> statistics p = if Z.odd s then Fermion else Boson) /\ (majorana (sp p) = true -> Q3 p = 0 /\ charge k = 0).
Proof.
  apply (library_kind _ (fun p k => match k with Hadron c s b => stat_eqb (statistics p) (if Z.odd s then Fermion else Boson) | _ => true end &&
    (negb (majorana (sp p)) || ((Q3 p =? 0) && (charge k =? 0))))).
  - intros p k H. apply andb_true_iff in H. destruct H as [H1 H2]. split.
    + intros c s b ->. now apply stat_eqb_eq.
    + intros M. rewrite M in H2. cbn [negb orb] in H2. apply andb_true_iff in H2. destruct H2 as [H2 H3]. split; now apply Z.eqb_eq.
  - vm_compute. reflexivity.
  - intros id m. split; [discriminate|now split].
  - intros id m. split; [discriminate|now split].
Qed.
Print Assumptions C146_consistent.
(* the charges are those of the constituents, except for the proton *)
Theorem C146_charges : forall p k, particle_of_library p -> is_kind (lname p) k -> lname p <> "Proton"%string -> Q3 p = charge k.
Proof.
  apply (library_kind (fun p k => lname p <> "Proton"%string -> Q3 p = charge k) (fun p k => String.eqb (lname p) "Proton" || (Q3 p =? charge k))).
  - intros p k H N. apply orb_true_iff in H. destruct H as [H|H]; [apply String.eqb_eq in H; contradiction|now apply Z.eqb_eq].
  - vm_compute. reflexivity.
  - reflexivity.
  - reflexivity.
Qed.
Print Assumptions C146_charges.
Theorem C146_proton_refuted : exists p k, particle_of_library p /\ is_kind (lname p) k /\ lname p = "Proton"%string /\ charge k = 3 /\ Q3 p = -3.
Proof. exists proton, (Hadron [q_ U; q_ U; q_ D] 1 false). repeat split; [left; cbn; intuition|exists 938272; cbn; intuition]. Qed.
Print Assumptions C146_proton_refuted.
(* the masses are the measured ones, to a thousandth; to three hundredths for the
   quarks; exactly zero for the massless particles. Masses of LibModel.v are in eV *)
Theorem C146_masses : forall p k m, In p SM_table -> In (lname p, k, m) identity ->
  (match k with Quark _ => 100 | _ => 3000 end) * Z.abs (smass (sp p) - m * 1000) <= 3 * (m * 1000).
Proof.
  apply (by_table _ (fun p k m => (match k with Quark _ => 100 | _ => 3000 end) * Z.abs (smass (sp p) - m * 1000) <=? 3 * (m * 1000))).
  - intros p k m H. now apply Z.leb_le.
  - vm_compute. reflexivity.
Qed.
Print Assumptions C146_masses.
(* names, symbols and object identities are distinct in the tables *)
Theorem C146_distinct : NoDup (map lname SM_table) /\ NoDup (map symbol SM_table) /\ NoDup (map (fun p => sid (sp p)) SM_table).
Proof.
  split; [apply nodup_str_ok; vm_compute; reflexivity|]. split; [apply nodup_str_ok; vm_compute; reflexivity|].
  change (NoDup (seq 0 27)). apply seq_NoDup.
Qed.
Print Assumptions C146_distinct.
(* so that the relativistic plasma of the fundamental particles of the table has
   96.75 degrees of freedom: the 106.75 of the standard model without the 10 of W,
   Z and Higgs *)
Definition fundamental (k : kind) : bool := match k with Hadron _ _ _ => false | _ => true end.
Theorem C146_plasma : forall l, (forall p, In p l <-> In p SM_table /\ exists k, is_kind (lname p) k /\ fundamental k = true) -> NoDup l ->
  let g s := fold_right Z.add 0 (map ldof (filter (fun p => match statistics p, s with Fermion, Fermion | Boson, Boson => true | _, _ => false end) l)) in
  400 * g Boson + 350 * g Fermion = 38700.
Proof.
  intros l HL N. cbv beta zeta.
  set (ref := [photon; gluon; neutrino_e; neutrino_mu; neutrino_tau; electron; muon; tau; up; down; charm; strange; top; bottom]).
  assert (NR : NoDup ref). { apply (NoDup_map_inv lname). apply nodup_str_ok. vm_compute. reflexivity. }
  assert (K : forall p k m, In p SM_table -> In (lname p, k, m) identity -> fundamental k = true -> existsb (fun r => String.eqb (lname r) (lname p)) ref = true).
  { apply (by_table (fun p k m => fundamental k = true -> existsb (fun r => String.eqb (lname r) (lname p)) ref = true) (fun p k m => negb (fundamental k) || existsb (fun r => String.eqb (lname r) (lname p)) ref)).
    - intros p k m H F. rewrite F in H. exact H.
    - vm_compute. reflexivity. }
  assert (RT : forall r, In r ref -> In r SM_table) by (intros r I; unfold ref in I; unfold SM_table; cbn in I |- *; tauto).
  assert (U : forall p r, In p SM_table -> In r SM_table -> lname r = lname p -> r = p).
  { intros p r Ip Ir E. destruct C146_distinct as [N1 _]. clear - Ip Ir E N1. induction SM_table as [|x l IH]; [destruct Ip|]. cbn in N1. inversion N1 as [|? ? M1 M2]; subst.
    destruct Ip as [->|Ip], Ir as [->|Ir]; [reflexivity| | |now apply IH]; exfalso; apply M1; [rewrite <- E|rewrite E]; now apply in_map. }
  assert (P : Permutation l ref).
  { apply NoDup_Permutation; [exact N|exact NR|]. intros p. rewrite HL. split.
    - intros (I & k & (m & H) & F). pose proof (K p k m I H F) as J. apply existsb_exists in J. destruct J as (r & Ir & E). apply String.eqb_eq in E.
      now rewrite <- (U p r I (RT r Ir) E).
    - intros I. split; [now apply RT|].
      assert (F : forallb (fun p => match find_id (lname p) identity with Some (k, m) => fundamental k | None => false end) ref = true) by (vm_compute; reflexivity).
      rewrite forallb_forall in F. specialize (F p I). destruct (find_id (lname p) identity) as [[k m]|] eqn:E; [|discriminate]. apply identity_find in E. exists k. split; [now exists m|exact F]. }
  assert (S : forall f, fold_right Z.add 0 (map ldof (filter f l)) = fold_right Z.add 0 (map ldof (filter f ref))).
  { intros f. clear - P. induction P; cbn; [reflexivity| | |congruence].
    - destruct (f x); cbn; now rewrite IHP.
    - destruct (f x), (f y); cbn; lia. }
  rewrite !S. vm_compute. reflexivity.
Qed.
Print Assumptions C146_plasma.
Example C146_example : particle_of_library charged_rho /\ is_kind (lname charged_rho) (Hadron [q_ D; anti U] 2 false) /\ ldof charged_rho = 6 /\ statistics charged_rho = Boson /\ Q3 charged_rho = -3.
Proof. repeat split; [left; cbn; intuition|exists 775110; cbn; intuition]. Qed.
Example C146_sterile : particle_of_library (sterile_neutrino 30 100000000) /\ is_kind (lname (sterile_neutrino 30 100000000)) (SterileNu true).
Proof. split; [right; eexists; eexists; left; reflexivity|exists 0; cbn; intuition]. Qed.
(* treated as decaying at once: the mesons and the charged leptons that decay *)
Definition short_lived (n : string) (k : kind) : bool :=
  match k with Hadron c _ _ => Nat.even (length c) | ChargedLepton => negb (String.eqb n "Electron") | _ => false end.
Theorem C146_short_lived : forall p k, particle_of_library p -> is_kind (lname p) k -> fast_decay p = short_lived (lname p) k.
Proof.
  apply (library_kind _ (fun p k => Bool.eqb (fast_decay p) (short_lived (lname p) k))).
  - intros p k H. now apply Bool.eqb_prop.
  - vm_compute. reflexivity.
  - reflexivity.
  - reflexivity.
Qed.
Print Assumptions C146_short_lived.
