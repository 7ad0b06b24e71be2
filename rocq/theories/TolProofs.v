From Coq Require Import Reals Lra.
From Coquelicot Require Import Coquelicot.
From Verif Require Import Base FunctionalModel BoundsModel Integrate3Model Integrate4Model TolModel.
Open Scope R_scope.

Lemma accepted_sum : forall eps rel r I, 0 <= eps -> 0 <= rel -> accepted eps rel r I -> Rabs (r - I) <= eps + rel * Rabs I.
Proof.
  intros eps rel r I He Hr Ha. unfold accepted in Ha. assert (0 <= rel * Rabs I) by (apply Rmult_le_pos; [lra | apply Rabs_pos]).
  eapply Rle_trans; [exact Ha|]. apply Rmax_lub; lra.
Qed.

(* an integral of values off by eps + rel |w| *)
Lemma outer_error : forall lo hi eps rel w u I I' S, lo <= hi ->
  (forall x, lo < x < hi -> Rabs (u x - w x) <= eps + rel * Rabs (w x)) ->
  is_RInt w lo hi I -> is_RInt u lo hi I' -> is_RInt (fun x => Rabs (w x)) lo hi S ->
  Rabs (I' - I) <= eps * (hi - lo) + rel * S.
Proof.
  intros lo hi eps rel w u I I' S Hle Hd Hw Hu HS.
  assert (Hb : is_RInt (fun x => eps + rel * Rabs (w x)) lo hi (eps * (hi - lo) + rel * S)).
  { apply (is_RInt_plus (V := R_NormedModule)).
    - replace (eps * (hi - lo)) with (scal (hi - lo) eps) by (unfold scal; simpl; unfold mult; simpl; ring).
      apply (is_RInt_const (V := R_NormedModule)).
    - apply (is_RInt_scal (V := R_NormedModule)). exact HS. }
  assert (Hm : is_RInt (fun x => u x - w x) lo hi (I' - I)).
  { apply (is_RInt_minus (V := R_NormedModule)); assumption. }
  apply Rabs_le. split.
  - assert (Hn : is_RInt (fun x => w x - u x) lo hi (I - I')).
    { apply (is_RInt_minus (V := R_NormedModule)); assumption. }
    assert (Hx : I - I' <= eps * (hi - lo) + rel * S).
    { eapply is_RInt_le; [exact Hle | exact Hn | exact Hb |]. intros x Hx. pose proof (Hd x Hx) as H.
      apply Rabs_le_between in H. lra. }
    lra.
  - eapply is_RInt_le; [exact Hle | exact Hm | exact Hb |]. intros x Hx. pose proof (Hd x Hx) as H.
    apply Rabs_le_between in H. lra.
Qed.

Lemma abs_int : forall lo hi w I S, lo <= hi -> is_RInt w lo hi I -> is_RInt (fun x => Rabs (w x)) lo hi S -> Rabs I <= S.
Proof.
  intros lo hi w I S Hle Hw HS. apply Rabs_le. split.
  - assert (Ho : is_RInt (fun x => - w x) lo hi (- I)) by (apply (is_RInt_opp (V := R_NormedModule)); exact Hw).
    assert (- I <= S). { eapply is_RInt_le; [exact Hle | exact Ho | exact HS |]. intros x Hx.
      cbv beta. rewrite <- (Rabs_Ropp (w x)). apply Rle_abs. }
    lra.
  - eapply is_RInt_le; [exact Hle | exact Hw | exact HS |]. intros x Hx. apply Rle_abs.
Qed.

Lemma nested_error : forall lo hi eps w u I I' S r, lo <= hi -> 0 <= eps ->
  (forall x, lo < x < hi -> Rabs (u x - w x) <= eps + releps * Rabs (w x)) ->
  is_RInt w lo hi I -> is_RInt u lo hi I' -> is_RInt (fun x => Rabs (w x)) lo hi S ->
  accepted eps releps r I' ->
  Rabs (r - I) <= eps * (1 + 101 / 100 * (hi - lo)) + 201 / 10000 * S.
Proof.
  intros lo hi eps w u I I' S r Hle He Hd Hw Hu HS Hr.
  pose proof (outer_error _ _ _ _ _ _ _ _ _ Hle Hd Hw Hu HS) as H1.
  pose proof (abs_int _ _ _ _ _ Hle Hw HS) as H2.
  apply accepted_sum in Hr; [| lra | unfold releps; lra]. unfold releps in *.
  assert (H3 : Rabs I' <= Rabs I + Rabs (I' - I)).
  { replace I' with (I + (I' - I)) at 1 by ring. apply Rabs_triang. }
  assert (H4 : Rabs (r - I) <= Rabs (r - I') + Rabs (I' - I)).
  { replace (r - I) with ((r - I') + (I' - I)) by ring. apply Rabs_triang. }
  assert (0 <= S) by (pose proof (Rabs_pos I); lra).
  lra.
Qed.

Lemma RInt_same : forall lo hi (v v' : R -> R) J J', (forall x, Rmin lo hi < x < Rmax lo hi -> v x = v' x) ->
  is_RInt v lo hi J -> is_RInt v' lo hi J' -> J = J'.
Proof.
  intros lo hi v v' J J' He Hv Hv'.
  assert (H : is_RInt v' lo hi J) by (eapply is_RInt_ext; [exact He | exact Hv]).
  apply (is_RInt_unique (V := R_CompleteNormedModule)) in H. apply (is_RInt_unique (V := R_CompleteNormedModule)) in Hv'. congruence.
Qed.

Lemma inner_error : forall rs M Ms k mn mx mx3 eps p0 p1 j J, 0 <= eps ->
  inner_is rs M Ms k mn mx mx3 p0 p1 J -> inner_returned rs M Ms k mn mx mx3 eps p0 p1 j ->
  Rabs (j - J) <= eps + releps * Rabs J.
Proof.
  intros rs M Ms k mn mx mx3 eps p0 p1 j J He. unfold inner_is, inner_returned.
  destruct (p2_limits rs mn mx mx3 p0 p1) as [[[lo|] [hi|]]|]; try tauto.
  - intros [v [Hv HJ]] [v' [J' [Hv' [HJ' Ha]]]].
    assert (J = J').
    { eapply RInt_same; [| exact HJ | exact HJ']. intros x Hx. pose proof (Hv x Hx) as E1. pose proof (Hv' x Hx) as E2.
      rewrite E1 in E2. injection E2. auto. }
    subst J'. apply accepted_sum; [exact He | unfold releps; lra | exact Ha].
  - intros -> ->. rewrite Rminus_0_r, Rabs_R0. lra.
Qed.

Lemma point4_error : forall rs M Ms k st mn mx mx3 s p0 lo hi eps w I S r,
  snd (p1_step rs mx3 st p0) = Some (Some lo, Some hi) -> lo <= hi -> abseps4 rs k s p0 = Ok eps -> 0 <= eps ->
  (forall p1, lo < p1 < hi -> inner_is rs M Ms k mn mx mx3 p0 p1 (w p1)) ->
  is_RInt w lo hi I -> is_RInt (fun x => Rabs (w x)) lo hi S ->
  point4_returned rs M Ms k st mn mx mx3 s p0 r ->
  Rabs (r - I) <= eps * (1 + 101 / 100 * (hi - lo)) + 201 / 10000 * S.
Proof.
  intros rs M Ms k st mn mx mx3 s p0 lo hi eps w I S r Hl Hle Heps He Hw HI HS Hr.
  unfold point4_returned in Hr. rewrite Hl in Hr. destruct Hr as [eps' [u [I' [Ee [Hu [HI' Ha]]]]]].
  rewrite Heps in Ee. injection Ee. intros <-.
  rewrite Rmin_left, Rmax_right in Hu by lra.
  eapply nested_error; [exact Hle | exact He | | exact HI | exact HI' | exact HS | exact Ha].
  intros x Hx. eapply inner_error; [exact He | apply Hw; exact Hx | apply Hu; exact Hx].
Qed.

Lemma accepted_self : forall eps rel I, 0 <= eps -> accepted eps rel I I.
Proof. intros. unfold accepted. rewrite Rminus_eq_0, Rabs_R0. eapply Rle_trans; [| apply Rmax_l]. lra. Qed.

Lemma inner_exact : forall rs M Ms k mn mx mx3 eps p0 p1 J, 0 <= eps ->
  inner_is rs M Ms k mn mx mx3 p0 p1 J -> inner_returned rs M Ms k mn mx mx3 eps p0 p1 J.
Proof.
  intros rs M Ms k mn mx mx3 eps p0 p1 J He. unfold inner_is, inner_returned.
  destruct (p2_limits rs mn mx mx3 p0 p1) as [[[lo|] [hi|]]|]; try tauto.
  intros [v [Hv HJ]]. exists v, J. split; [exact Hv | split; [exact HJ | apply accepted_self; exact He]].
Qed.

Lemma point4_accepts : forall rs M Ms k st mn mx mx3 s p0 lo hi eps I r,
  snd (p1_step rs mx3 st p0) = Some (Some lo, Some hi) -> abseps4 rs k s p0 = Ok eps -> 0 <= eps ->
  point4_is rs M Ms k st mn mx mx3 p0 I -> accepted eps releps r I -> point4_returned rs M Ms k st mn mx mx3 s p0 r.
Proof.
  intros rs M Ms k st mn mx mx3 s p0 lo hi eps I r Hl Heps He HI Ha. unfold point4_is in HI. unfold point4_returned. rewrite Hl in *.
  destruct HI as [w [Hw HI]]. exists eps, w, I. split; [exact Heps | split; [| split; [exact HI | exact Ha]]].
  intros p1 Hp. apply inner_exact; [exact He | apply Hw; exact Hp].
Qed.

Lemma point3_error : forall rs k mx2 st s p0 I r, 0 < s -> p0 <> 0 -> point3_is rs k mx2 st p0 I -> point3_returned rs k mx2 st s p0 r ->
  Rabs (r - I) <= Rmax (1 / 100 / s) (1 / 100 * Rabs I).
Proof.
  intros rs k mx2 st s p0 I r Hs Hp. unfold point3_is, point3_returned. destruct (Req_EM_T p0 0) as [E|_]; [contradiction|].
  destruct (snd (p1_step3 rs mx2 st p0)) as [[lo hi]|].
  - intros [v [Hv HI]] [v' [I' [Hv' [HI' Ha]]]].
    assert (I = I').
    { eapply RInt_same; [| exact HI | exact HI']. intros x Hx. pose proof (Hv x Hx) as E1. pose proof (Hv' x Hx) as E2.
      rewrite E1 in E2. injection E2. auto. }
    subst I'. exact Ha.
  - intros -> ->. rewrite Rminus_0_r, Rabs_R0, Rmult_0_r. eapply Rle_trans; [| apply Rmax_l].
    apply Rlt_le, Rdiv_lt_0_compat; lra.
Qed.
