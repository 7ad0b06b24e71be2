(* Widths of the charged leptons, products taken as massless. *)
From Coq Require Import Reals Lra Psatz.
From Coquelicot Require Import Coquelicot.
From Verif Require Import Base FunctionalModel CrossModel CrossProofs LibModel LibProofs Lib2Proofs ParamsModel MatrixModel KinemModel RelabelProofs LedgerProofs LedgerProps Decay4Proofs Decay4Props EnergyProofs ChannelProofs.
Open Scope R_scope.
Local Notation length := List.length.

Lemma relabel_id r : map (relabel (fun s => s)) r = r.
Proof. induction r as [|[]]; cbn; [reflexivity|]. now rewrite IHr. Qed.
Definition ashore (r : list item) : bool :=
  ((length r =? 3) || (length r =? 4))%nat && forallb (fun it => existsb (specie_eqb (ispecie it)) (map sp SM_all)) r.
Lemma ashore_libs r : ashore r = true -> from_libs SM_all r /\ (length r = 3 \/ length r = 4)%nat.
Proof.
  unfold ashore. intros H. apply andb_prop in H. destruct H as [HL H]. split.
  - intros it Hi. rewrite forallb_forall in H. specialize (H it Hi). apply existsb_exists in H. destruct H as (s & Hs & E). apply specie_eqb_eq in E.
    apply in_map_iff in Hs. destruct Hs as (q & <- & Hq). now exists q.
  - apply orb_prop in HL. destruct HL as [E|E]; apply Nat.eqb_eq in E; auto.
Qed.
Definition pcheck (p : lib) (r : list item) : bool :=
  ashore r && forallb (fun o => perm4 (placed r o)) std_orders && (place_of (lname p) r =? 0)%nat &&
  match filter (fun it => (iside it =? -1)%Z) r with h :: _ => negb (anti h) | [] => false end.
Lemma rate_plain ks p m ms r : 0 < m -> sees ks SM_all -> pcheck p r = true -> proper ms ->
  rate_of ks p m (ms, r) (INR (weight (charged_names SM_all) r) / kdof (ks (sp p)) * (sumK ms * m ^ 5 / (12288 * PI ^ 3))).
Proof.
  intros Hm HS HC HM. unfold pcheck in HC. apply andb_prop in HC. destruct HC as [HC HA]. apply andb_prop in HC. destruct HC as [HC HP]. apply andb_prop in HC. destruct HC as [HK HO].
  destruct (ashore_libs r HK) as [HL HLen].
  assert (HW : number_weight ks r = Ok (INR (weight (charged_names SM_all) r))) by (apply weight_ok; [exact HS|vm_compute; reflexivity|exact HL|exact HLen]).
  destruct (filter (fun it => (iside it =? -1)%Z) r) as [|h t] eqn:EF; [discriminate HA|]. apply negb_true_iff in HA.
  destruct (apply_proper (fun s => s) r ms HO HM) as (ms' & E1 & E2 & E3). rewrite relabel_id in E1.
  eexists _, (ispecie h), ms', _. cbn [fst snd]. split; [exact HW|]. split; [|split].
  - unfold init_integral. rewrite EF. rewrite HA, E1. reflexivity.
  - apply Nat.eqb_eq in HP. rewrite HP. apply rate_value; auto.
  - now rewrite E3.
Qed.
Lemma width_plain ks p m S l W : 0 < m -> sees ks SM_all -> Forall (fun i => proper (snd i) /\ sumK (snd i) = S) l ->
  forallb (pcheck p) (flat_map (fun i => decays_of p (snd (fst i))) l) = true ->
  weights (charged_names SM_all) (flat_map (fun i => decays_of p (snd (fst i))) l) = W ->
  width ks p m l (INR W / kdof (ks (sp p)) * (S * m ^ 5 / (12288 * PI ^ 3))).
Proof.
  intros Hm HS HF HC <-. unfold width.
  assert (HW : forall a b, INR (weights (charged_names SM_all) (a ++ b)) = INR (weights (charged_names SM_all) a) + INR (weights (charged_names SM_all) b)).
  { intros a b. rewrite <- plus_INR. f_equal. unfold weights. rewrite map_app, fold_right_app. induction (map (weight (charged_names SM_all)) a) as [|q a' IHa]; [reflexivity|]. cbn [fold_right]. rewrite IHa. lia. }
  revert HC. induction HF as [|[i Ms] l [HP HS'] HF IH]; intros HC.
  - cbn. unfold Rdiv. ring.
  - cbn [flat_map fst snd] in HC. rewrite forallb_app in HC. apply andb_prop in HC. destruct HC as [C1 C2].
    unfold events. cbn [flat_map fst snd]. rewrite HW.
    replace (_ / _ * _) with (INR (weights (charged_names SM_all) (decays_of p (snd i))) / kdof (ks (sp p)) * (S * m ^ 5 / (12288 * PI ^ 3)) +
      INR (weights (charged_names SM_all) (flat_map (fun i => decays_of p (snd (fst i))) l)) / kdof (ks (sp p)) * (S * m ^ 5 / (12288 * PI ^ 3))) by (unfold Rdiv; ring).
    apply total_app; [|exact (IH C2)]. clear IH C2. cbn [snd] in HP, HS'. induction (decays_of p (snd i)) as [|r rs IHr]; [cbn; unfold Rdiv; ring|].
    cbn [forallb] in C1. apply andb_prop in C1. destruct C1 as [D1 D2]. cbn [map total]. eexists _, _. split; [now apply rate_plain|]. split; [exact (IHr D2)|].
    rewrite HS'. change (r :: rs) with ([r] ++ rs). rewrite HW. unfold weights at 1. cbn [map fold_right]. rewrite Nat.add_0_r. unfold Rdiv. ring.
Qed.

(* lists without repetition drawn from a list of three *)
Definition arrangements {A} (a b c : A) : list (list A) :=
  [[]; [a]; [b]; [c]; [a; b]; [b; a]; [a; c]; [c; a]; [b; c]; [c; b]; [a; b; c]; [a; c; b]; [b; a; c]; [b; c; a]; [c; a; b]; [c; b; a]].
Lemma arrangements_all {A} (a b c : A) l : NoDup l -> incl l [a; b; c] -> In l (arrangements a b c).
Proof.
  intros N I. assert (L : (length l <= 3)%nat) by (exact (NoDup_incl_length N I)).
  destruct l as [|x [|y [|z [|w l]]]]; [..|cbn in L; lia].
  - cbn; tauto.
  - pose proof (I x ltac:(cbn; tauto)) as X. cbn in X. destruct X as [<-|[<-|[<-|[]]]]; cbn; tauto.
  - pose proof (I x ltac:(cbn; tauto)) as X. pose proof (I y ltac:(cbn; tauto)) as Y. inversion N as [|? ? N1 _]; subst. cbn in N1.
    destruct X as [<-|[<-|[<-|[]]]]; destruct Y as [<-|[<-|[<-|[]]]]; try (exfalso; tauto); unfold arrangements; cbn; tauto.
  - pose proof (I x ltac:(cbn; tauto)) as X. pose proof (I y ltac:(cbn; tauto)) as Y. pose proof (I z ltac:(cbn; tauto)) as Z.
    inversion N as [|? ? N1 N2]; subst. inversion N2 as [|? ? N3 _]; subst. cbn in N1, N3.
    destruct X as [<-|[<-|[<-|[]]]]; destruct Y as [<-|[<-|[<-|[]]]]; try (exfalso; tauto); destruct Z as [<-|[<-|[<-|[]]]]; try (exfalso; tauto); unfold arrangements; cbn; tauto.
Qed.
