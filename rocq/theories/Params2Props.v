(* C16, C20, C28: further statements about the cosmological parameters and the
   QCD transition, added after mutation tests. *)
From Coq Require Import Reals Lra Permutation.
From Verif Require Import Base ParamsModel ParamsProofs.
Open Scope R_scope.

(* the comoving temperature is the initial one plus the increments of the steps
   since the last reassignment *)
Fixpoint aT_after (aT : R) (ops : list pop) : R :=
  match ops with
  | [] => aT
  | MakeStep daT _ _ :: r => aT_after (aT + daT) r
  | SetAT v _ _ :: r => aT_after v r
  end.
Theorem C16_comoving_temperature : forall logmode ops p, paT (prun logmode p ops) = aT_after (paT p) ops.
Proof.
  intros logmode. induction ops as [|o ops IH]; intros p; [reflexivity|]. unfold prun in *. cbn [fold_left].
  rewrite IH. destruct o; reflexivity.
Qed.
Print Assumptions C16_comoving_temperature.
(* the last recorded density and entropy are the ones last handed over *)
Theorem C16_records : forall logmode ops p o rho ent, (exists d, o = MakeStep d rho ent) \/ (exists v, o = SetAT v rho ent) ->
  let q := prun logmode p (ops ++ [o]) in prho q = Some rho /\ pS q = ent.
Proof.
  intros logmode ops p o rho ent H. unfold prun. rewrite fold_left_app. cbn [fold_left].
  destruct H as [[d ->]|[v ->]]; split; reflexivity.
Qed.
Print Assumptions C16_records.
Example C16_comoving_ex : aT_after 1 [MakeStep (1/2) 1 1; SetAT 3 1 1; MakeStep (1/4) 1 1] = 13 / 4.
Proof. cbn. lra. Qed.

(* C20: the initial state *)
Theorem C20_initial_state : forall logmode T km kdx kdy p, params_init logmode (Val T) km kdx kdy = Ok p ->
  pm p = match km with Val m => m | _ => / 1000 end /\
  pa p = pm p / T /\ pT p = T /\ px p = pm p ^ 2 / T /\ paT p = pm p / T * T /\
  pt p = 0 /\ pH p = 0 /\ prho p = None /\ pNeff p = 0 /\ pS p = 0 /\
  (logmode = true -> exists dy, kdy = Val dy /\ pdy p = Some dy /\ ph p = dy /\ pdx p = px p * dy) /\
  (logmode = false -> exists dx, kdx = Val dx /\ pdy p = None /\ ph p = dx /\ pdx p = dx).
Proof.
  intros logmode T km kdx kdy p H. unfold params_init in H.
  assert (HM : 1 * MeV = / 1000) by (unfold MeV, eV; field).
  destruct km as [| |m]; cbv beta iota zeta in H; try discriminate;
  (destruct (Req_EM_T T 0) as [|HT]; [discriminate|]);
  (destruct logmode; [destruct kdy as [| |dy]; try discriminate; destruct (Req_EM_T dy 0); try discriminate|
                      destruct kdx as [| |dx]; try discriminate; destruct (Req_EM_T dx 0); try discriminate]);
  inversion H; subst; cbn [pm pa pT px paT pt pH prho pNeff pS pdy ph pdx]; rewrite ?HM;
  repeat match goal with |- _ /\ _ => split end; try reflexivity; try (field; exact HT); try (intros; discriminate);
  try (intros _; eexists; repeat split; reflexivity).
Qed.
Print Assumptions C20_initial_state.

(* C28: the weight of a species is its degrees of freedom, times 7/8 for a
   fermion, if it is in equilibrium and lighter than the temperature *)
Definition weight (T : R) (p : qpart) : R :=
  if qineq p then if Rlt_dec (qmass p) T then qdof p * (if qfermion p then 7 / 8 else 1) else 0 else 0.
Theorem C28_entropic_dof : forall T ps, entropic_dof T ps = fold_right Rplus 0 (map (weight T) ps).
Proof.
  intros T. induction ps as [|p ps IH]; [reflexivity|]. cbn [entropic_dof map fold_right]. rewrite IH. f_equal.
  unfold weight. destruct (qineq p), (Rlt_dec (qmass p) T), (qfermion p); try reflexivity; field.
Qed.
Print Assumptions C28_entropic_dof.
(* which makes it the entropy density 4/3 rho / T of the relativistic bath, in
   units of 2 pi^2 / 45 T^3 *)
Theorem C28_entropy_of_radiation : forall T ps, 0 < T -> Forall (fun p => qineq p = true /\ qmass p < T) ps ->
  fold_right Rplus 0 (map (fun p => 4 / 3 * rad_rho (qdof p) (qfermion p) T / T) ps) = 2 * PI ^ 2 / 45 * entropic_dof T ps * T ^ 3.
Proof.
  intros T ps HT H. rewrite C28_entropic_dof. induction H as [|p ps [H1 H2] H IH]; cbn [map fold_right]; [ring|].
  rewrite IH. unfold weight at 2, rad_rho. rewrite H1. destruct (Rlt_dec (qmass p) T) as [_|N]; [|contradiction].
  destruct (qfermion p); field; lra.
Qed.
Print Assumptions C28_entropy_of_radiation.
(* nothing left in the bath after the transition *)
Theorem C28_empty_bath : forall orderer T ps hist aTl dropped hadrons,
  entropic_dof T (orderer (filter (fun p => negb (existsb (String.eqb (qname p)) qcd_names)) ps ++ hadrons)) = 0 ->
  qcd_aT orderer T ps (hist ++ [aTl; dropped]) (Some hadrons) = Raise ZeroDivisionError.
Proof.
  intros orderer T ps hist aTl dropped hadrons H. unfold qcd_aT. rewrite H.
  replace (hist ++ [aTl; dropped]) with ((hist ++ [aTl]) ++ [dropped]) by now rewrite <- app_assoc.
  rewrite removelast_last. rewrite rev_app_distr. cbn [rev app]. destruct (Req_EM_T 0 0); [reflexivity|congruence].
Qed.
Print Assumptions C28_empty_bath.
Example C28_dof_ex : entropic_dof 1 [mkqpart "Photon" 0 2 false true; mkqpart "Electron" (1/2) 4 true true;
  mkqpart "Muon" 100 4 true true; mkqpart "Sterile" 0 4 true false]%string = 11 / 2.
Proof.
  rewrite C28_entropic_dof. unfold weight. cbn [map fold_right qineq qmass qdof qfermion].
  destruct (Rlt_dec 0 1); [|lra]. destruct (Rlt_dec (1/2) 1); [|lra]. destruct (Rlt_dec 100 1); lra.
Qed.

(* the exception raised in every other case: TypeError for m = None or a missing T
   before anything else, ZeroDivisionError for T = 0, TypeError for a logarithmic
   step given as None, and Exception for a step that is missing or zero *)
Theorem C20_exceptions : forall logmode T km kdx kdy,
  (forall kT, params_init logmode kT PNone kdx kdy = Raise TypeError) /\
  (km <> PNone -> params_init logmode (Val 0) km kdx kdy = Raise ZeroDivisionError) /\
  (km <> PNone -> T <> 0 ->
    params_init true (Val T) km kdx PNone = Raise TypeError /\
    params_init true (Val T) km kdx Absent = Raise GenericException /\
    params_init true (Val T) km kdx (Val 0) = Raise GenericException /\
    params_init false (Val T) km PNone kdy = Raise GenericException /\
    params_init false (Val T) km Absent kdy = Raise GenericException /\
    params_init false (Val T) km (Val 0) kdy = Raise GenericException).
Proof.
  intros logmode T km kdx kdy. split; [intros [| |x]; reflexivity|]. split.
  - intros H. unfold params_init. destruct km; try contradiction; (destruct (Req_EM_T 0 0); [reflexivity|contradiction]).
  - intros H HT. unfold params_init. destruct km; try contradiction; (destruct (Req_EM_T T 0); [contradiction|]); cbn zeta;
      (destruct (Req_EM_T 0 0); [|contradiction]); repeat split; reflexivity.
Qed.
Print Assumptions C20_exceptions.
Example C20_exceptions_example : params_init true (Val 10) Absent Absent PNone = Raise TypeError /\ params_init false (Val 10) Absent PNone PNone = Raise GenericException.
Proof.
  destruct (C20_exceptions true 10 Absent Absent PNone) as (_ & _ & H). destruct H as (A & _ & _ & B & _); [discriminate|lra|]. split; assumption.
Qed.
