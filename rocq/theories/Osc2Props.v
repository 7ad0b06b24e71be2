(* The matter parameters passed to the oscillation pattern (C88, C108). Numbers
   are written out: the squared mass differences are 7.37e-5 eV^2 and
   2.56e-3 eV^2, and 1 eV = 10^-9 GeV. *)
From Coq Require Import Reals Lra Psatz.
From Verif Require Import Base ParamsModel ParamsProofs OscModel OscProofs OscProps.
Open Scope R_scope.

Lemma Ok_eq (A : Type) (a b : A) : Ok a = Ok b -> a = b.
Proof. congruence. Qed.
Lemma dm_is : delta_m12_sq = 737 / 10000000 / 10 ^ 18 /\ delta_m13_sq = 256 / 100000 / 10 ^ 18.
Proof. unfold delta_m12_sq, delta_m13_sq, eV. split; field. Qed.
(* y is the conformal momentum: the parameters are a function of the physical
   momentum y / a and of the temperature; the hierarchy changes the sign of the
   second one only *)
Theorem C88_matter_parameters : forall pf msw0 T a normal ys, a <> 0 -> exists m12 m13,
  osc_parameters pf msw0 T a normal true (Some ys) = pf (Some (Ar m12)) (Some (Ar m13)) true /\ length m12 = length ys /\ length m13 = length ys /\
  forall i y, nth_error ys i = Some y ->
    nth i m12 0 * (737 / 10000000) = msw0 * (y / a) ^ 2 * T ^ 4 * 10 ^ 18 /\
    nth i m13 0 * (256 / 100000) = (if normal then msw0 else - msw0) * (y / a) ^ 2 * T ^ 4 * 10 ^ 18.
Proof.
  intros pf msw0 T a normal ys Ha. destruct dm_is as [D1 D2]. eexists. eexists. split; [reflexivity|]. rewrite !map_length. split; [reflexivity|]. split; [reflexivity|].
  assert (H10 : 10 ^ 18 <> 0) by (apply pow_nonzero; lra).
  intros i y E. assert (N : forall f, nth i (map f ys) 0 = f y).
  { intros f. assert (E' : nth_error (map f ys) i = Some (f y)) by (rewrite nth_error_map, E; reflexivity). apply nth_error_nth with (d := 0) in E'. exact E'. }
  rewrite !N, D1, D2. set (t := 10 ^ 18) in *. clearbody t. split; [|destruct normal]; field; auto.
Qed.
Print Assumptions C88_matter_parameters.
Theorem C88_no_matter : forall pf msw0 T a normal template, osc_parameters pf msw0 T a normal false template = pf (Some (Sc 0)) (Some (Sc 0)) false.
Proof. reflexivity. Qed.
Print Assumptions C88_no_matter.
(* so with matter effects off the pattern is the vacuum one, whatever the
   temperature; with them on and a vanishing temperature it is the same *)
Theorem C88_vacuum_limit : forall msw0 a normal ys p p', a <> 0 ->
  osc_parameters oscillations_map msw0 0 a normal true (Some ys) = Ok p -> osc_parameters oscillations_map msw0 0 a normal false (Some ys) = Ok p' ->
  forall i b c, (i < length ys)%nat -> In b flavours -> In c flavours -> pat p i b c = pat p' i b c.
Proof.
  intros msw0 a normal ys p p' Ha E E' i b c Hi Hb Hc.
  assert (Z : forall y d, msw0 * y ^ 2 * 0 ^ 4 / d / a ^ 2 = 0) by (intros y d; unfold Rdiv; ring).
  unfold osc_parameters, oscillations_map in *.
  match type of E with Ok (pattern_of (amap _ (Ar ?l)) (amap _ (Ar ?m))) = _ => set (m12 := l) in E; set (m13 := m) in E end.
  assert (L12 : length m12 = length ys) by apply map_length. assert (L13 : length m13 = length ys) by apply map_length.
  assert (V12 : forall k, (k < length ys)%nat -> at_ k (amap (matter_angle th12_vac) (Ar m12)) = th12_vac).
  { intros k Hk. cbn [amap at_]. assert (EN : m12 = map (fun _ => 0) ys) by (apply map_ext; intros y; apply Z).
    rewrite EN, map_map. destruct (C88_matter 0) as (_ & A & _). clear -Hk A. revert k Hk. induction ys as [|y ys IH]; intros k Hk; [cbn in Hk; lia|]. destruct k; cbn [map nth]; [exact A|]. apply IH. cbn in Hk. lia. }
  assert (V13 : forall k, (k < length ys)%nat -> at_ k (amap (matter_angle th13_vac) (Ar m13)) = th13_vac).
  { intros k Hk. cbn [amap at_]. assert (EN : m13 = map (fun _ => 0) ys) by (apply map_ext; intros y; rewrite Z; ring).
    rewrite EN, map_map. destruct (C88_matter 0) as (_ & _ & A & _). clear -Hk A. revert k Hk. induction ys as [|y ys IH]; intros k Hk; [cbn in Hk; lia|]. destruct k; cbn [map nth]; [exact A|]. apply IH. cbn in Hk. lia. }
  apply Ok_eq in E, E'. subst p p'. destruct (find_ok b c Hb Hc) as (e & Ee & _). unfold pat.
  destruct (pattern_at (length ys) (amap (matter_angle th12_vac) (Ar m12)) (amap (matter_angle th13_vac) (Ar m13)) b c e) as (z & Ez & _ & Az); auto.
  { cbn. now rewrite map_length. } { cbn. now rewrite map_length. }
  destruct (pattern_at (length ys) (Sc th12_vac) (Sc th13_vac) b c e) as (z' & Ez' & _ & Az'); cbn; auto.
  cbn [amap] in Ez, Az, V12, V13. rewrite Ez, Ez', Az, Az', V12, V13 by auto. reflexivity.
Qed.
Print Assumptions C88_vacuum_limit.
Example C88_vacuum_case : exists p p', osc_parameters oscillations_map 5 0 2 true true (Some [1; 3]) = Ok p /\ osc_parameters oscillations_map 5 0 2 true false (Some [1; 3]) = Ok p'.
Proof. eexists. eexists. split; reflexivity. Qed.
(* parameters of different shapes are rejected when an entry is computed *)
Theorem C88_shape_mismatch : forall l m p, length l <> length m -> (2 <= length l)%nat -> (2 <= length m)%nat -> oscillations_map (Some (Ar l)) (Some (Ar m)) true = Ok p ->
  forall a b, In a flavours -> In b flavours -> (a <> "muon" \/ b <> "muon")%string -> p a b = Raise ValueError.
Proof.
  intros l m p HN Hl Hm E a b Ha Hb HM. apply Ok_eq in E. subst p.
  assert (B : forall f, bop f (amap (matter_angle th12_vac) (Ar l)) (amap (matter_angle th13_vac) (Ar m)) = Raise ValueError).
  { intros f. cbn [amap bop]. rewrite !map_length. destruct (Nat.eqb_spec (length l) (length m)); [contradiction|].
    destruct l as [|x [|x' l]]; cbn [length] in *; try lia. destruct m as [|y [|y' m]]; cbn [length] in *; try lia. reflexivity. }
  unfold pattern_of. cbn [flavours In] in Ha, Hb. destruct Ha as [<-|[<-|[<-|[]]]], Hb as [<-|[<-|[<-|[]]]]; cbn [find_entry String.eqb Ascii.eqb Bool.eqb rbind]; try apply B. destruct HM; congruence.
Qed.
Print Assumptions C88_shape_mismatch.
