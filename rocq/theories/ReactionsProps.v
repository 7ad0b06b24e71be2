(* C13-C15, C96. *)
From Coq Require Import Permutation Sorted.
From Verif Require Import Base ReactionsModel ReactionsProofs.

(* C13: classification by particle counts, hence exactly one type holds *)
Theorem C13_types_by_count :
  forall r, two_sided r -> length r = 3 \/ length r = 4 ->
  (is_CREATION r = true <-> nright r < nleft r) /\
  (is_SCATTERING r = true <-> nright r = nleft r) /\
  (is_DECAY r = true <-> nleft r < nright r).
Proof. exact types_by_count. Qed.
Print Assumptions C13_types_by_count.
Theorem C13_side_swap :
  forall r, is_CREATION (flip r) = is_DECAY r /\ is_DECAY (flip r) = is_CREATION r /\
            is_SCATTERING (flip r) = is_SCATTERING r.
Proof. exact flip_types. Qed.
Print Assumptions C13_side_swap.
Theorem C13_order_irrelevant :
  forall r r', Permutation r r' ->
  is_CREATION r = is_CREATION r' /\ is_SCATTERING r = is_SCATTERING r' /\ is_DECAY r = is_DECAY r'.
Proof.
  intros r r' H. unfold is_CREATION, is_SCATTERING, is_DECAY. rewrite (sumsides_perm r r' H). auto.
Qed.
Print Assumptions C13_order_irrelevant.
Example C13_ex : let s := mkspecie 0 "e" 1 in
  let r := [mkitem (-1) s; mkitem 1 s; mkitem 1 s; mkitem 1 s] in
  two_sided r /\ length r = 4 /\ is_DECAY r = true.
Proof.
  cbn zeta. split; [|split; reflexivity]. split.
  - simpl. intros it [<-|[<-|[<-|[<-|[]]]]]; simpl; auto.
  - split; [eexists; (split; [left; reflexivity|reflexivity])|eexists; (split; [right; left; reflexivity|reflexivity])].
Qed.

(* C14 *)
Theorem C14_particle_filter :
  forall names ps, selects (fun p => ~ In (pname p) names) ps (particle_filter names ps).
Proof.
  intros names ps. apply filter_selects. intros p.
  rewrite negb_true_iff, <- not_true_iff_false, mem_name_In. reflexivity.
Qed.
Print Assumptions C14_particle_filter.
Theorem C14_particle_filter_compose :
  forall n1 n2 ps, particle_filter n2 (particle_filter n1 ps) = particle_filter (n1 ++ n2) ps.
Proof. exact particle_filter_compose. Qed.
Print Assumptions C14_particle_filter_compose.
Theorem C14_interaction_filter :
  forall names inters sums (first_only : bool),
  (first_only = true -> forall i r, In i inters -> In r i -> r <> []) ->
  exists out, interaction_filter names inters first_only sums = Ok out /\
    Forall2 (selects (if first_only then survives_first names sums else survives_all names sums)) inters out.
Proof. exact interaction_filter_spec. Qed.
Print Assumptions C14_interaction_filter.
Theorem C14_interaction_filter_compose :
  forall n1 n2 s1 s2 (first_only : bool) inters,
  (first_only = true -> forall i r, In i inters -> In r i -> r <> []) ->
  (let* out := interaction_filter n1 inters first_only s1 in interaction_filter n2 out first_only s2)
  = interaction_filter (n1 ++ n2) inters first_only (s1 ++ s2).
Proof. exact interaction_filter_compose. Qed.
Print Assumptions C14_interaction_filter_compose.
Example C14_ex : let e := mkspecie 0 "e" 1 in let g := mkspecie 1 "g" 0 in
  let r1 := [mkitem (-1) e; mkitem 1 g; mkitem 1 g] in
  let r2 := [mkitem (-1) g; mkitem (-1) g; mkitem 1 e] in
  interaction_filter ["e"%string] [[r1; r2]] true [] = Ok [[r2]] /\
  interaction_filter ["e"%string] [[r1; r2]] false [] = Ok [[]].
Proof. split; reflexivity. Qed.

(* C15 *)
Theorem C15_orderer_permutes :
  forall ps, Permutation (particle_orderer ps) ps.
Proof. exact orderer_perm. Qed.
Print Assumptions C15_orderer_permutes.
Theorem C15_orderer_sorted :
  forall ps, LocallySorted ge (particle_orderer ps).
Proof. exact orderer_sorted. Qed.
Print Assumptions C15_orderer_sorted.
Theorem C15_orderer_canonical :
  forall ps ps', uniq ps -> Permutation ps ps' -> particle_orderer ps = particle_orderer ps'.
Proof. exact orderer_canonical. Qed.
Print Assumptions C15_orderer_canonical.
Example C15_ex : let e := mkspecie 0 "e" 1 in let g := mkspecie 1 "g" 0 in let h := mkspecie 2 "h" 0 in
  uniq [g; e; h] /\ particle_orderer [g; e; h] = [e; h; g].
Proof.
  cbn zeta. split; [|reflexivity]. intros a b Ha Hb. simpl in Ha, Hb.
  destruct Ha as [<-|[<-|[<-|[]]]], Hb as [<-|[<-|[<-|[]]]]; cbn; split; intros H; try reflexivity; discriminate H.
Qed.

(* C96: accepted kinds are None and the eight enum members (values 0..7) *)
Theorem C96_kind_validation :
  forall k, (exists n, kind_accepted k = Ok n) <-> (k = KNone \/ exists n, k = KEnum n /\ n < 8).
Proof. exact kind_spec. Qed.
Print Assumptions C96_kind_validation.
