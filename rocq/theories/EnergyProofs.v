(* Energies of the products of a three-body decay, read off the amplitudes of the
   crossed reactions. *)
From Coq Require Import Reals Lra Psatz.
From Coquelicot Require Import Coquelicot.
From Verif Require Import Base FunctionalModel CrossModel CrossProofs LibModel LibProofs Lib2Proofs MatrixModel KinemModel RelabelProofs LedgerProofs LedgerProps Decay4Proofs Decay4Props.
Open Scope R_scope.
Local Notation length := List.length.

(* Specification. The parent, of mass m, is at rest and stands at position par of
   the reaction; the other three participants, in the order of the reaction, are
   massless and have energies e1, e2 and m - e1 - e2. *)
Definition en (m : R) (par : nat) (e1 e2 : R) (i : nat) : R :=
  if (i =? par)%nat then m
  else match (if (par <? i)%nat then i - 1 else i)%nat with 0%nat => e1 | 1%nat => e2 | _ => m - e1 - e2 end.
Definition pdot (m : R) (par : nat) (e1 e2 : R) (i j : nat) : R :=
  if (i =? par)%nat then m * en m par e1 e2 j else if (j =? par)%nat then m * en m par e1 e2 i
  else (m ^ 2 - 2 * m * en m par e1 e2 (6 - par - i - j)%nat) / 2.
Definition pmass (m : R) (par i : nat) : R := if (i =? par)%nat then m else 0.
Definition amp_at (m : R) (par : nat) (ms : list mel) (e1 e2 : R) : R :=
  fold_right (fun M s => match M with
    | M4 [i; j; k; l] K1 K2 K => let d := pdot m par e1 e2 in K1 * d i j * d k l + K2 * pmass m par i * pmass m par j * d k l + K
    | _ => 0 end + s) 0 ms.
(* the energy the first participant carries, integrated over all events *)
Definition energy_rate (m : R) (par : nat) (ms : list mel) (E : R) : Prop :=
  dalitz_is m (fun e1 e2 => en m par e1 e2 0 * amp_at m par ms e1 e2) E.

Definition perm4 (o : list nat) : bool := match o with [i; j; k; l] => forallb (fun v => existsb (Nat.eqb v) o) [0; 1; 2; 3]%nat && forallb (fun v => (v <? 4)%nat) o | _ => false end.
Definition mate (par : nat) (o : list nat) : nat :=
  match o with [i; j; k; l] => if (i =? par)%nat then j else if (j =? par)%nat then i else if (k =? par)%nat then l else k | _ => 0%nat end.
(* its share of the parent's mass, in twentieths *)
Definition share20 (par : nat) (o : list nat) : nat := if (par =? 0)%nat then 20%nat else if (mate par o =? 0)%nat then 6%nat else 7%nat.
Definition slot (par : nat) (o : list nat) : nat := S (if (par <? mate par o)%nat then mate par o - 1 else mate par o)%nat.

Lemma perm4_cases o : perm4 o = true -> In o (map (fun '(i, j, k, l) => [i; j; k; l]) [(0,1,2,3);(0,1,3,2);(0,2,1,3);(0,2,3,1);(0,3,1,2);(0,3,2,1);
  (1,0,2,3);(1,0,3,2);(1,2,0,3);(1,2,3,0);(1,3,0,2);(1,3,2,0);
  (2,0,1,3);(2,0,3,1);(2,1,0,3);(2,1,3,0);(2,3,0,1);(2,3,1,0);
  (3,0,1,2);(3,0,2,1);(3,1,0,2);(3,1,2,0);(3,2,0,1);(3,2,1,0)]%nat).
Proof.
  unfold perm4. destruct o as [|i [|j [|k [|l [|]]]]]; try discriminate. intros H. apply andb_prop in H. destruct H as [H1 H2].
  cbn [forallb] in H2. rewrite !andb_true_iff, !Nat.ltb_lt in H2. destruct H2 as (Hi & Hj & Hk & Hl & _).
  destruct i as [|[|[|[|]]]]; [..|lia]; destruct j as [|[|[|[|]]]]; try lia; destruct k as [|[|[|[|]]]]; try lia; destruct l as [|[|[|[|]]]]; try lia;
    try (vm_compute in H1; discriminate H1); cbn [map In]; tauto.
Qed.
Lemma amp_pairing m par o K1 K2 e1 e2 : perm4 o = true -> (par = 0 \/ par = 3)%nat -> amp_at m par [M4 o K1 K2 0] e1 e2 = K1 * m * pairing m e1 e2 (slot par o).
Proof.
  intros HO HP. apply perm4_cases in HO. cbn [map In] in HO.
  repeat match type of HO with _ \/ _ => destruct HO as [<-|HO] | False => contradiction end;
  destruct HP as [-> | ->]; cbn [amp_at fold_right]; unfold pdot, pmass, slot, mate, pairing, en; cbn [Nat.eqb Nat.ltb Nat.leb Nat.sub]; field.
Qed.
Lemma inner_energy m j : is_RInt (fun u => u * inner_pairing m u j) 0 (m / 2) (m ^ 6 / 192 * (if (j =? 1)%nat then 3 / 10 else 7 / 20)).
Proof.
  assert (HP : forall u, inner_pairing m u j = (if (j =? 1)%nat then u ^ 2 * m * (m - 2 * u) / 2 else m / 2 * (m * u ^ 2 / 2 - 2 * u ^ 3 / 3))) by (intros u; now destruct j as [|[|j]]).
  apply (is_RInt_ext (fun u => u * (if (j =? 1)%nat then u ^ 2 * m * (m - 2 * u) / 2 else m / 2 * (m * u ^ 2 / 2 - 2 * u ^ 3 / 3)))); [intros u _; now rewrite HP|]. clear HP.
  destruct (j =? 1)%nat.
  - pose proof (is_RInt_anti (fun u => m / 2 * (m * u ^ 4 / 4 - 2 * u ^ 5 / 5)) (fun u => u * (u ^ 2 * m * (m - 2 * u) / 2)) 0 (m / 2)) as C.
    match type of C with _ -> _ -> is_RInt _ _ _ ?x => replace (m ^ 6 / 192 * (3 / 10)) with x by field end.
    apply C; intros x.
    + auto_derive; [trivial|]. field.
    + apply (ex_derive_continuous (fun u : R => u * (u ^ 2 * m * (m - 2 * u) / 2))). auto_derive. trivial.
  - pose proof (is_RInt_anti (fun u => m / 2 * (m * u ^ 4 / 8 - 2 * u ^ 5 / 15)) (fun u => u * (m / 2 * (m * u ^ 2 / 2 - 2 * u ^ 3 / 3))) 0 (m / 2)) as C.
    match type of C with _ -> _ -> is_RInt _ _ _ ?x => replace (m ^ 6 / 192 * (7 / 20)) with x by field end.
    apply C; intros x.
    + auto_derive; [trivial|]. field.
    + apply (ex_derive_continuous (fun u : R => u * (m / 2 * (m * u ^ 2 / 2 - 2 * u ^ 3 / 3)))). auto_derive. trivial.
Qed.
Lemma energy_rate_value m par o K1 K2 : 0 < m -> perm4 o = true -> (par = 0 \/ par = 3)%nat ->
  energy_rate m par [M4 o K1 K2 0] (K1 * m ^ 6 / (12288 * PI ^ 3) * (INR (share20 par o) / 20)).
Proof.
  intros Hm HO HP. pose proof PI_RGT_0 as HPI.
  assert (Hs : (1 <= slot par o)%nat) by (unfold slot; lia).
  destruct HP as [HP|HP].
  - exists (fun u => m * (K1 * m * inner_pairing m u (slot par o))), (m * (K1 * m * (m ^ 5 / 192))). repeat split.
    + intros e1 _. eapply is_RInt_ext; [|exact (is_RInt_scal (V := R_NormedModule) _ _ _ m _ (is_RInt_scal (V := R_NormedModule) _ _ _ (K1 * m) _ (pairing_int m e1 (slot par o) Hs)))].
      intros x _. rewrite amp_pairing by auto. subst par. reflexivity.
    + exact (is_RInt_scal (V := R_NormedModule) _ _ _ m _ (is_RInt_scal (V := R_NormedModule) _ _ _ (K1 * m) _ (inner_pairing_int m (slot par o) Hs))).
    + subst par. unfold share20. cbn [Nat.eqb]. replace (INR 20) with 20 by (cbn; ring). field. lra.
  - exists (fun u => K1 * m * (u * inner_pairing m u (slot par o))), (K1 * m * (m ^ 6 / 192 * (if (slot par o =? 1)%nat then 3 / 10 else 7 / 20))). repeat split.
    + intros e1 _. eapply is_RInt_ext; [|].
      2:{ replace (K1 * m * (e1 * inner_pairing m e1 (slot par o))) with (e1 * (K1 * m * inner_pairing m e1 (slot par o))) by ring.
          exact (is_RInt_scal (V := R_NormedModule) _ _ _ e1 _ (is_RInt_scal (V := R_NormedModule) _ _ _ (K1 * m) _ (pairing_int m e1 (slot par o) Hs))). }
      intros x _. rewrite amp_pairing by auto. subst par. reflexivity.
    + exact (is_RInt_scal (V := R_NormedModule) _ _ _ (K1 * m) _ (inner_energy m (slot par o))).
    + subst par. unfold share20, slot. cbn [Nat.eqb].
      assert (HM : (mate 3 o < 3)%nat). { apply perm4_cases in HO. cbn [map In] in HO. repeat match type of HO with _ \/ _ => destruct HO as [<-|HO] | False => contradiction end; cbn; lia. }
      destruct (Nat.ltb_spec 3 (mate 3 o)); [lia|]. cbn [Nat.eqb]. destruct (mate 3 o =? 0)%nat; [replace (INR 6) with 6 by (cbn; ring)|replace (INR 7) with 7 by (cbn; ring)]; field; lra.
Qed.

(* the sum of the amounts P gives to the members of a list *)
Fixpoint total {A} (P : A -> R -> Prop) (l : list A) (x : R) : Prop :=
  match l with [] => x = 0 | a :: t => exists y z, P a y /\ total P t z /\ x = y + z end.
Fixpoint place_of (n : string) (r : list item) : nat :=
  match r with [] => 0%nat | it :: t => if String.eqb (sname (ispecie it)) n then 0%nat else S (place_of n t) end.
(* energy per volume and time that the integral of a reaction with the matrix
   elements Ms adds to, or removes from, the species it is computed for *)
Definition energy_of (ks : specie -> kspecie) (n : lib) (m : R) (e : list mel * list item) (x : R) : Prop :=
  exists w p ms E, number_weight ks (snd e) = Ok w /\ init_integral (fst e) (snd e) = Ok [mkIntegral p (snd e) ms] /\
                   energy_rate m (place_of (lname n) (snd e)) ms E /\ x = w * E.
(* interactions with their matrix elements; the reactions sel picks *)
Definition events (sel : list (list item) -> list (list item)) (l : list (inter * list mel)) : list (list mel * list item) :=
  flat_map (fun i => map (pair (snd i)) (sel (snd (fst i)))) l.
Fixpoint distinct (l : list lib) : list lib :=
  match l with [] => [] | p :: t => p :: filter (fun q => negb (String.eqb (lname q) (lname p))) (distinct t) end.
Definition energy_lost ks n m l x : Prop := total (energy_of ks n m) (events (decays_of n) l) x.
Definition energy_gained ks n m l products x : Prop := total (energy_of ks n m) (flat_map (fun s => events (creations_of n s) l) (distinct products)) x.

Lemma energy_of_unique ks n m e x y : 0 < m -> energy_of ks n m e x -> energy_of ks n m e y -> x = y.
Proof.
  intros Hm (w & p & ms & E & H1 & H2 & H3 & ->) (w' & p' & ms' & E' & H1' & H2' & H3' & ->).
  assert (w = w') by congruence. assert (ms = ms') by congruence. subst. f_equal. exact (dalitz_unique _ _ _ _ H3 H3' Hm).
Qed.
Lemma total_unique {A} (P : A -> R -> Prop) l x y : (forall a x y, P a x -> P a y -> x = y) -> total P l x -> total P l y -> x = y.
Proof.
  intros HP. revert x y. induction l as [|a l IH]; cbn [total]; intros x y; [congruence|].
  intros (u & v & H1 & H2 & ->) (u' & v' & H1' & H2' & ->). now rewrite (HP _ _ _ H1 H1'), (IH _ _ H2 H2').
Qed.

Lemma pos_of_relabel f v r : forall j d, pos_of v j (map (relabel f) r) d = pos_of v j r d.
Proof. induction r as [|it r IH]; intros j d; cbn [map pos_of]; [reflexivity|]. now rewrite IH. Qed.
Lemma map_order_relabel f r o : map_order (map (relabel f) r) o = map_order r o.
Proof. induction o as [|v o IH]; cbn [map_order]; [reflexivity|]. now rewrite pos_of_relabel, IH. Qed.
Lemma place_relabel f n r : keeps_kind f -> place_of n (map (relabel f) r) = place_of n r.
Proof. intros HK. induction r as [|it r IH]; cbn [map place_of]; [reflexivity|]. cbn [relabel ispecie]. now rewrite (proj1 (HK _)), IH. Qed.
Lemma filter_sides f r : filter (fun it => (iside it =? -1)%Z) (map (relabel f) r) = map (relabel f) (filter (fun it => (iside it =? -1)%Z) r).
Proof. now apply filter_map_comm. Qed.

(* one event, computed *)
Definition placed (r : list item) (o : list nat) : list nat := match map_order r o with Ok o' => store_order o' | Raise _ => [] end.
Definition echeck (maj : bool) (e : list nat * list item) : bool :=
  let r := snd e in let par := place_of (lname (N0 maj)) r in
  known maj r && perm4 (placed r (fst e)) && ((par =? 0)%nat || (par =? 3)%nat) &&
  match filter (fun it => (iside it =? -1)%Z) r with h :: _ => negb (anti h) | [] => false end.
Definition evalue (maj : bool) (e : list nat * list item) : nat :=
  (weight (charged_names (company (N0 maj))) (snd e) * share20 (place_of (lname (N0 maj)) (snd e)) (placed (snd e) (fst e)))%nat.
Definition evalues maj l : nat := fold_right Nat.add 0%nat (map (evalue maj) l).
Definition lifted (id : nat) (M : Z) (K1 K2 : R) (e : list nat * list item) : list mel * list item := ([M4 (fst e) K1 K2 0], map (relabel (swap id M)) (snd e)).

Lemma event_lift maj id M ks m K1 K2 e : 0 < m -> sees ks (company (NN maj id M)) -> (27 <= id)%nat -> echeck maj e = true ->
  energy_of ks (NN maj id M) m (lifted id M K1 K2 e) (K1 * m ^ 6 / (12288 * PI ^ 3) * (INR (evalue maj e) / 20)).
Proof.
  intros Hm HS Hid HC. destruct e as [o r]. unfold echeck in HC. cbn [fst snd] in HC. apply andb_prop in HC. destruct HC as [HC HA]. apply andb_prop in HC. destruct HC as [HC HP]. apply andb_prop in HC. destruct HC as [HK HO].
  assert (HL : lname (NN maj id M) = lname (N0 maj)) by (now destruct maj).
  assert (HPo : map_order r o = Ok (match map_order r o with Ok x => x | _ => [] end)).
  { unfold placed in HO. destruct (map_order r o); [reflexivity|discriminate HO]. }
  set (o' := match map_order r o with Ok x => x | _ => [] end) in *.
  assert (HPl : placed r o = store_order o') by (unfold placed; now rewrite HPo).
  destruct (known_drawn maj r HK) as [HD HLen].
  assert (HW : number_weight ks (map (relabel (swap id M)) r) = Ok (INR (weight (charged_names (company (N0 maj))) r))).
  { pose proof (weights_ok ks (company (NN maj id M)) (swap id M) (map sp (company (N0 maj))) [r] HS (company_names maj id M) (swap_kind id M)
      (swap_identity id M _ (company_fresh maj id Hid))) as HW.
    rewrite company_charged in HW. cbn [map rsum] in HW. unfold weights in HW. cbn [map fold_right] in HW. rewrite Nat.add_0_r in HW.
    specialize (HW ltac:(intros q [<-|[]]; split; assumption) ltac:(intros s Hs; now apply company_swap)).
    destruct (number_weight ks (map (relabel (swap id M)) r)) as [w|]; [|discriminate HW]. cbn [rbind] in HW. rewrite Rplus_0_r in HW. exact HW. }
  destruct (filter (fun it => (iside it =? -1)%Z) r) as [|h t] eqn:EF; [discriminate HA|]. apply negb_true_iff in HA.
  assert (HB : exists a b t', o' = a :: b :: t').
  { rewrite HPl in HO. destruct o' as [|a [|b t']]; [discriminate HO| |eauto]. unfold store_order in HO. cbn in HO. discriminate HO. }
  destruct HB as (a & b & t' & HB).
  exists (INR (weight (charged_names (company (N0 maj))) r)), (ispecie (relabel (swap id M) h)),
    [M4 (placed r o) K1 (if xorb (is_crossed (map (relabel (swap id M)) r) a) (is_crossed (map (relabel (swap id M)) r) b) then (K2 * -1)%R else K2) 0],
    (K1 * m ^ 6 / (12288 * PI ^ 3) * (INR (share20 (place_of (lname (N0 maj)) r) (placed r o)) / 20)).
  cbn [lifted fst snd]. split; [exact HW|]. split; [|split].
  - unfold init_integral. rewrite filter_sides, EF. cbn [map]. replace (anti (relabel (swap id M) h)) with (anti h) by reflexivity. rewrite HA.
    cbn [traverse]. unfold apply_order. rewrite map_order_relabel, HPo. cbn [rbind]. rewrite HB. cbn [rbind]. rewrite HPl, HB. reflexivity.
  - rewrite place_relabel by apply swap_kind. rewrite HL. apply energy_rate_value; [exact Hm|exact HO|].
    apply orb_prop in HP. destruct HP as [E|E]; apply Nat.eqb_eq in E; auto.
  - unfold evalue. cbn [fst snd]. rewrite mult_INR. pose proof PI_RGT_0. field. lra.
Qed.
Lemma events_lift maj id M ks m K1 K2 l : 0 < m -> sees ks (company (NN maj id M)) -> (27 <= id)%nat -> forallb (echeck maj) l = true ->
  total (energy_of ks (NN maj id M) m) (map (lifted id M K1 K2) l) (K1 * m ^ 6 / (12288 * PI ^ 3) * (INR (evalues maj l) / 20)).
Proof.
  intros Hm HS Hid. pose proof PI_RGT_0. induction l as [|e l IH]; cbn [forallb map total]; intros HC.
  - cbn. field. lra.
  - apply andb_prop in HC. destruct HC as [H1 H2]. eexists _, _. split; [now apply event_lift|]. split; [now apply IH|].
    unfold evalues. cbn [map fold_right]. rewrite plus_INR. field. lra.
Qed.

(* the interactions of N -> three neutrinos, one by one *)
Lemma scattering_swap2 maj id M a b : swap id M (sp a) = sp a -> swap id M (sp b) = sp b -> (27 <= id)%nat ->
  has_N0 (fst (sterile_active_scattering (N0 maj) a b)) && has_N0 (snd (sterile_active_scattering (N0 maj) a b)) = true ->
  (masses (others_of (fst (sterile_active_scattering (N0 maj) a b))) < M)%Z -> (masses (others_of (snd (sterile_active_scattering (N0 maj) a b))) < M)%Z ->
  map snd (scattering_pair (NN maj id M) a b) = map (map (map (relabel (swap id M)))) (map snd (scattering_pair (N0 maj) a b)).
Proof.
  intros Ea Eb Hid HH HM0 HM1. apply andb_prop in HH. destruct HH as [H0 H1].
  assert (S0 : swapped id M (fst (sterile_active_scattering (N0 maj) a b)) (fst (sterile_active_scattering (NN maj id M) a b))).
  { split; [reflexivity|]. unfold species_of, sterile_active_scattering, tmpl22. cbn [tparts fst snd map]. now rewrite swap_N0, Ea, Eb. }
  assert (S1 : swapped id M (snd (sterile_active_scattering (N0 maj) a b)) (snd (sterile_active_scattering (NN maj id M) a b))).
  { split; [reflexivity|]. unfold species_of, sterile_active_scattering, tmpl22. cbn [tparts fst snd map]. now rewrite swap_N0, Ea, Eb. }
  apply (reactions_swap id M _ _ H0) in S0; try assumption. apply (reactions_swap id M _ _ H1) in S1; try assumption.
  unfold scattering_pair, sterile_active_scattering in *. cbn [fst snd] in *. unfold plain. cbn [map snd]. rewrite S0, S1. do 2 f_equal.
  rewrite map_map. rewrite (map_ext (fun r => first_name (map (relabel (swap id M)) r)) first_name) by (intros r; apply first_name_relabel, swap_kind).
  apply filter_relabel. intros r. now rewrite first_name_relabel by apply swap_kind.
Qed.
