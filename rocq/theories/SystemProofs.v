(* Proofs about the model of the helpers that touch the outside world. *)
From Verif Require Import Base SystemModel.
Local Notation length := List.length.

(* ------------------------------------------------------------------ *)
(* Streams *)
Lemma install_log : forall k s, install k s = Log k s.
Proof.
  intros k s. unfold install, set_stdout. destruct s as [|f|j t]; try reflexivity.
  cbn [orb mentions]. now rewrite Nat.eqb_refl, orb_true_r.
Qed.

Lemma installs_sinks : forall ks s, sinks (installs ks s) = sinks s ++ map ToLog ks.
Proof.
  induction ks as [|k ks IH]; intro s; [cbn; now rewrite app_nil_r|].
  cbn [installs fold_left]. fold (installs ks (install k s)).
  rewrite IH, install_log. cbn [sinks map]. now rewrite <- app_assoc.
Qed.

(* ------------------------------------------------------------------ *)
(* Files *)
(* Everything is in a directory *)
Definition wf (f : fs) : Prop :=
  forall p n, f p = Some n -> p <> [] /\ (removelast p <> [] -> f (removelast p) = Some Dir).

(* The file system with the missing directories down to p *)
Definition filled (f : fs) (p q : path) : option node :=
  match f q with
  | Some n => Some n
  | None => match q with [] => None | _ => if is_prefix q p then Some Dir else None end
  end.

Lemma path_eqb_spec : forall p q, path_eqb p q = true <-> p = q.
Proof. intros p q. unfold path_eqb. destruct (list_eq_dec string_dec p q); split; congruence. Qed.

Lemma path_eqb_refl : forall p, path_eqb p p = true.
Proof. intro p. now apply path_eqb_spec. Qed.

Lemma is_prefix_spec : forall p q, is_prefix p q = true <-> exists r, q = p ++ r.
Proof.
  induction p as [|a p IH]; intros q.
  - cbn. split; [intros _; now exists q|reflexivity].
  - destruct q as [|b q]; cbn.
    + split; [discriminate|]. intros [r H]; discriminate.
    + rewrite andb_true_iff, String.eqb_eq, IH. split.
      * intros [-> [r ->]]. now exists r.
      * intros [r H]. injection H as -> ->. split; [reflexivity|now exists r].
Qed.

Lemma is_prefix_refl : forall p, is_prefix p p = true.
Proof. intro p. apply is_prefix_spec. exists []. now rewrite app_nil_r. Qed.

Lemma snoc_removelast : forall (p : path), p <> [] -> exists x, p = removelast p ++ [x].
Proof. intros p H. exists (last p EmptyString). now apply app_removelast_last. Qed.

Lemma prefix_snoc : forall q d x,
  is_prefix q (d ++ [x]) = true <-> q = d ++ [x] \/ is_prefix q d = true.
Proof.
  intros q d x. rewrite !is_prefix_spec. split.
  - intros [r H]. destruct r as [|y r] using rev_ind.
    + left. now rewrite app_nil_r in H.
    + right. exists r. rewrite app_assoc in H. apply app_inj_tail in H. apply H.
  - intros [->|[r ->]].
    + exists []. now rewrite app_nil_r.
    + exists (r ++ [x]). now rewrite app_assoc.
Qed.

Lemma prefix_longer : forall q d, (length d < length q)%nat -> is_prefix q d = false.
Proof.
  intros q d H. destruct (is_prefix q d) eqn:E; [|reflexivity].
  apply is_prefix_spec in E. destruct E as [r ->]. rewrite app_length in H. lia.
Qed.

(* All ancestors of what exists are directories *)
Lemma wf_ancestors : forall f, wf f -> forall r q n, q <> [] -> r <> [] ->
  f (q ++ r) = Some n -> f q = Some Dir.
Proof.
  intros f W. induction r as [|x r IH] using rev_ind; intros q n Hq Hr H; [easy|].
  rewrite app_assoc in H. destruct (W _ _ H) as [_ P]. rewrite removelast_last in P.
  assert (N : q ++ r <> []) by (destruct q; [easy|discriminate]).
  specialize (P N). destruct r as [|y r]; [now rewrite app_nil_r in P|].
  apply (IH q Dir); [exact Hq|discriminate|exact P].
Qed.

Lemma app_one_length : forall (d : path) x, length (d ++ [x]) = S (length d).
Proof. intros d x. rewrite app_length. cbn. lia. Qed.

Lemma mkdir_ok : forall f d x, f (d ++ [x]) = None ->
  (d <> [] -> f d = Some Dir) ->
  mkdir f (d ++ [x]) = inl (put f (d ++ [x]) Dir).
Proof.
  intros f d x N P. unfold mkdir. rewrite N. unfold parent_ok. rewrite removelast_last.
  destruct (d ++ [x]) eqn:E; [destruct d; discriminate|].
  destruct d as [|a d]; [reflexivity|]. rewrite P by discriminate. reflexivity.
Qed.

Lemma makedirs_ok : forall m p f, (length p <= m)%nat -> p <> [] -> wf f -> f p = None ->
  (forall q c, is_prefix q p = true -> f q <> Some (File c)) ->
  exists f', makedirs m f p = inl f' /\ forall q, f' q = filled f p q.
Proof.
  induction m as [|m IH]; intros p f L NE W N NF.
  - destruct p; [easy|cbn in L; lia].
  - destruct (snoc_removelast p NE) as [x E].
    remember (removelast p) as d eqn:Ed. subst p. clear NE. rewrite app_one_length in L.
    cbn [makedirs]. rewrite removelast_last.
    assert (PUT : (d <> [] -> f d = Some Dir) ->
              forall q, put f (d ++ [x]) Dir q = filled f (d ++ [x]) q).
    { intros D q. unfold put, filled. destruct (path_eqb (d ++ [x]) q) eqn:Q.
      - apply path_eqb_spec in Q. subst q. rewrite N, is_prefix_refl.
        destruct (d ++ [x]) eqn:E2; [destruct d; discriminate|reflexivity].
      - destruct (f q) as [n|] eqn:Fq; [reflexivity|]. destruct q as [|a q]; [reflexivity|].
        destruct (is_prefix (a :: q) (d ++ [x])) eqn:PR; [|reflexivity].
        apply prefix_snoc in PR. destruct PR as [PR|PR].
        + rewrite PR, path_eqb_refl in Q. discriminate.
        + exfalso. apply is_prefix_spec in PR. destruct PR as [r PR].
          assert (Dd : f d = Some Dir) by (apply D; rewrite PR; discriminate).
          destruct r as [|y r].
          * rewrite app_nil_r in PR. congruence.
          * rewrite PR in Dd. rewrite (wf_ancestors f W (y :: r) (a :: q) Dir) in Fq;
              [discriminate|discriminate|discriminate|exact Dd]. }
    destruct d as [|a d].
    + exists (put f ([] ++ [x]) Dir). split; [apply mkdir_ok; [exact N|easy]|].
      apply PUT. easy.
    + destruct (f (a :: d)) as [[|c]|] eqn:Fd.
      * exists (put f ((a :: d) ++ [x]) Dir). split; [now apply mkdir_ok|]. now apply PUT.
      * exfalso. apply (NF (a :: d) c); [|exact Fd]. apply prefix_snoc. right. apply is_prefix_refl.
      * destruct (IH (a :: d) f) as [f' [M F']]; [lia|discriminate|exact W|exact Fd| |].
        { intros q c Hq. apply NF. apply prefix_snoc. now right. }
        rewrite M. exists (put f' ((a :: d) ++ [x]) Dir). split.
        -- apply mkdir_ok.
           ++ rewrite F'. unfold filled. rewrite N.
              destruct ((a :: d) ++ [x]) eqn:E2; [reflexivity|]. rewrite <- E2.
              rewrite prefix_longer; [reflexivity|]. rewrite app_one_length. lia.
           ++ intros _. rewrite F'. unfold filled. now rewrite Fd, is_prefix_refl.
        -- intro q. unfold put. destruct (path_eqb ((a :: d) ++ [x]) q) eqn:Q.
           ++ apply path_eqb_spec in Q. subst q. unfold filled. rewrite N, is_prefix_refl.
              reflexivity.
           ++ rewrite F'. unfold filled. destruct (f q); [reflexivity|].
              destruct q as [|b q]; [reflexivity|].
              destruct (is_prefix (b :: q) (a :: d)) eqn:P1.
              ** rewrite (proj2 (prefix_snoc (b :: q) (a :: d) x) (or_intror P1)). reflexivity.
              ** destruct (is_prefix (b :: q) ((a :: d) ++ [x])) eqn:P2; [|reflexivity].
                 apply prefix_snoc in P2. destruct P2 as [P2|P2]; [|congruence].
                 rewrite P2, path_eqb_refl in Q. discriminate.
Qed.

Lemma makedirs_blocked : forall m p f q c, (length p <= m)%nat -> wf f -> f p = None ->
  is_prefix q p = true -> f q = Some (File c) ->
  makedirs m f p = inr NotADirectory.
Proof.
  induction m as [|m IH]; intros p f q c L W N PR Fq.
  - destruct p; [|cbn in L; lia]. apply is_prefix_spec in PR. destruct PR as [r PR].
    destruct (W _ _ Fq) as [NQ _]. destruct q; [easy|discriminate].
  - assert (NE : p <> []).
    { intros ->. apply is_prefix_spec in PR. destruct PR as [r PR].
      destruct (W _ _ Fq) as [NQ _]. destruct q; [easy|discriminate]. }
    destruct (snoc_removelast p NE) as [x E].
    remember (removelast p) as d eqn:Ed. subst p. clear NE. rewrite app_one_length in L.
    cbn [makedirs]. rewrite removelast_last.
    apply prefix_snoc in PR. destruct PR as [->|PR]; [congruence|].
    assert (D : d <> []).
    { intros ->. apply is_prefix_spec in PR. destruct PR as [r PR].
      destruct (W _ _ Fq) as [NQ _]. destruct q; [easy|discriminate]. }
    assert (MK : forall c', f d = Some (File c') -> mkdir f (d ++ [x]) = inr NotADirectory).
    { intros c' H. unfold mkdir. rewrite N. unfold parent_ok. rewrite removelast_last.
      destruct (d ++ [x]) eqn:E2; [destruct d; discriminate|]. destruct d; [easy|]. now rewrite H. }
    destruct d as [|a d]; [easy|].
    destruct (f (a :: d)) as [[|c']|] eqn:Fd.
    + exfalso. apply is_prefix_spec in PR. destruct PR as [r PR]. destruct r as [|y r].
      * rewrite app_nil_r in PR. congruence.
      * destruct (W _ _ Fq) as [NQ _]. rewrite PR in Fd.
        rewrite (wf_ancestors f W (y :: r) q Dir NQ) in Fq; [discriminate|discriminate|exact Fd].
    + now apply (MK c').
    + rewrite (IH (a :: d) f q c); [reflexivity|lia|exact W|exact Fd|exact PR|exact Fq].
Qed.

Lemma exists_path_spec : forall f p, wf f ->
  exists_path f p = match f p with Some _ => true | None => false end.
Proof.
  intros f p W. destruct p as [|a p]; [|reflexivity]. cbn. destruct (f []) eqn:E; [|reflexivity].
  destruct (W _ _ E) as [H _]. easy.
Qed.

(* ensure_dir, in all cases *)
Lemma ensure_dir_ok : forall f p, wf f -> p <> [] ->
  (forall q c, is_prefix q p = true -> q <> p -> f q <> Some (File c)) ->
  exists f', ensure_dir f p = inl f' /\ forall q, f' q = filled f p q.
Proof.
  intros f p W NE NF. unfold ensure_dir. rewrite exists_path_spec by exact W.
  destruct (f p) as [n|] eqn:E.
  - exists f. split; [reflexivity|]. intro q. unfold filled. destruct (f q) eqn:Fq; [reflexivity|].
    destruct q as [|a q]; [reflexivity|]. destruct (is_prefix (a :: q) p) eqn:PR; [|reflexivity].
    exfalso. apply is_prefix_spec in PR. destruct PR as [r ->]. destruct r as [|y r].
    + rewrite app_nil_r in E. congruence.
    + rewrite (wf_ancestors f W (y :: r) (a :: q) n) in Fq;
        [discriminate|discriminate|discriminate|exact E].
  - apply makedirs_ok; auto. intros q c PR. destruct (list_eq_dec string_dec q p) as [->|Q].
    + congruence.
    + now apply NF.
Qed.

Lemma filled_wf : forall f p g, wf f ->
  (forall q c, is_prefix q p = true -> q <> p -> f q <> Some (File c)) ->
  (forall q, g q = filled f p q) -> wf g.
Proof.
  intros f p g W NF G q n H. rewrite G in H. unfold filled in H.
  destruct (f q) as [n'|] eqn:E.
  - destruct (W _ _ E) as [A B]. split; [exact A|]. intro C. rewrite G. unfold filled.
    now rewrite (B C).
  - destruct q as [|a q]; [discriminate|]. destruct (is_prefix (a :: q) p) eqn:PR; [|discriminate].
    split; [discriminate|]. intro C. rewrite G. unfold filled.
    set (d := removelast (a :: q)) in *.
    assert (PD : is_prefix d p = true).
    { apply is_prefix_spec in PR. destruct PR as [r ->]. apply is_prefix_spec.
      exists ([last (a :: q) EmptyString] ++ r).
      rewrite app_assoc. unfold d. rewrite <- app_removelast_last by discriminate. reflexivity. }
    destruct (f d) as [[|c]|] eqn:Fd; [reflexivity| |].
    + exfalso. apply (NF d c PD); [|exact Fd]. intros Q. subst p.
      apply is_prefix_spec in PR. destruct PR as [r PR].
      assert (L : length d = length ((a :: q) ++ r)) by now rewrite PR.
      unfold d in L. rewrite app_length in L.
      assert (LL : length (a :: q) = S (length (removelast (a :: q)))).
      { rewrite (app_removelast_last EmptyString (l := a :: q)) at 1 by discriminate.
        apply app_one_length. }
      lia.
    + destruct d; [easy|]. now rewrite PD.
Qed.

Lemma rmtree_wf : forall f p g, wf f -> rmtree f p = inl g -> wf g.
Proof.
  intros f p g W H. unfold rmtree in H. destruct (f p) as [[|c]|] eqn:E; try discriminate.
  injection H as <-. intros q n Hq. cbn beta in Hq |- *.
  destruct (is_prefix p q) eqn:PQ; [discriminate|].
  destruct (W _ _ Hq) as [A B]. split; [exact A|]. intro C.
  destruct (is_prefix p (removelast q)) eqn:PR; [|now apply B].
  exfalso. apply is_prefix_spec in PR. destruct PR as [r PR].
  assert (Q : is_prefix p q = true).
  { apply is_prefix_spec. exists (r ++ [last q EmptyString]).
    rewrite app_assoc, <- PR. now apply app_removelast_last. }
  congruence.
Qed.

(* What a new Universe leaves of the files *)
Definition after_universe (f : fs) (folder q : path) : option node :=
  if path_eqb q folder then Some Dir
  else if path_eqb q (folder ++ ["log.txt"%string]) then Some (File EmptyString)
  else if is_prefix folder q then None
  else filled f folder q.

Lemma universe_ok : forall f folder, wf f -> folder <> [] ->
  (forall q c, is_prefix q folder = true -> f q <> Some (File c)) ->
  exists f', universe_folder f folder = inl f' /\
             forall q, f' q = after_universe f folder q.
Proof.
  intros f folder W NE NF. unfold universe_folder.
  destruct folder as [|a p] eqn:EF; [easy|]. rewrite <- EF in *. clear EF a p.
  rewrite exists_path_spec by exact W.
  set (cleared := match f folder with Some _ => true | None => false end).
  assert (C : exists f1, (if cleared then rmtree f folder else inl f) = inl f1 /\ wf f1 /\
                (forall q, f1 q = if is_prefix folder q then None else f q)).
  { unfold cleared. destruct (f folder) as [[|c]|] eqn:E.
    - eexists. split; [unfold rmtree; rewrite E; reflexivity|]. split.
      + apply (rmtree_wf f folder); [exact W|]. unfold rmtree. now rewrite E.
      + reflexivity.
    - exfalso. apply (NF folder c); [apply is_prefix_refl|exact E].
    - exists f. split; [reflexivity|]. split; [exact W|]. intro q.
      destruct (is_prefix folder q) eqn:PR; [|reflexivity].
      apply is_prefix_spec in PR. destruct PR as [r ->].
      destruct r as [|y r]; [now rewrite app_nil_r|].
      destruct (f (folder ++ y :: r)) as [n|] eqn:Fq; [|reflexivity].
      rewrite (wf_ancestors f W (y :: r) folder n NE) in E; [discriminate|discriminate|exact Fq]. }
  destruct C as [f1 [-> [W1 F1]]].
  unfold ensure_path. rewrite removelast_last.
  assert (NF1 : forall q c, is_prefix q folder = true -> q <> folder -> f1 q <> Some (File c)).
  { intros q c PR _. rewrite F1. destruct (is_prefix folder q); [discriminate|now apply NF]. }
  destruct (ensure_dir_ok f1 folder W1 NE NF1) as [f2 [-> F2]].
  unfold create.
  destruct (folder ++ ["log.txt"%string]) eqn:EL; [destruct folder; discriminate|]. rewrite <- EL.
  assert (NL : f2 (folder ++ ["log.txt"%string]) = None).
  { rewrite F2. unfold filled. rewrite F1.
    assert (PR : is_prefix folder (folder ++ ["log.txt"%string]) = true)
      by (apply is_prefix_spec; now exists ["log.txt"%string]).
    rewrite PR. rewrite EL at 1. rewrite prefix_longer; [reflexivity|]. rewrite app_one_length. lia. }
  rewrite NL. unfold parent_ok. rewrite removelast_last.
  assert (DF : f2 folder = Some Dir).
  { rewrite F2. unfold filled. rewrite F1, is_prefix_refl. destruct folder; [easy|reflexivity]. }
  exists (put f2 (folder ++ ["log.txt"%string]) (File EmptyString)).
  split; [destruct folder; [easy|now rewrite DF]|].
  intro q. unfold put, after_universe.
  destruct (path_eqb (folder ++ ["log.txt"%string]) q) eqn:Q.
  - apply path_eqb_spec in Q. subst q. rewrite path_eqb_refl.
    destruct (path_eqb (folder ++ ["log.txt"%string]) folder) eqn:Q2; [|reflexivity].
    apply path_eqb_spec in Q2. apply (f_equal (@List.length string)) in Q2.
    rewrite app_one_length in Q2. lia.
  - destruct (path_eqb q folder) eqn:Q2; [apply path_eqb_spec in Q2; now subst q|].
    destruct (path_eqb q (folder ++ ["log.txt"%string])) eqn:Q3.
    { apply path_eqb_spec in Q3. rewrite Q3, path_eqb_refl in Q. discriminate. }
    rewrite F2. unfold filled. rewrite F1. destruct (is_prefix folder q) eqn:PR; [|reflexivity].
    destruct q as [|b q]; [reflexivity|].
    destruct (is_prefix (b :: q) folder) eqn:PR2; [|reflexivity].
    exfalso. apply is_prefix_spec in PR, PR2. destruct PR as [r PR]. destruct PR2 as [r2 PR2].
    assert (LL := f_equal (@List.length string) PR). assert (LM := f_equal (@List.length string) PR2).
    rewrite app_length in LL, LM. assert (length r = 0)%nat by lia. destruct r; [|discriminate].
    rewrite app_nil_r in PR. rewrite PR, path_eqb_refl in Q2. discriminate.
Qed.

Lemma universe_blocked : forall f folder q c, wf f ->
  is_prefix q folder = true -> f q = Some (File c) ->
  universe_folder f folder = inr NotADirectory.
Proof.
  intros f folder q c W PR Fq.
  assert (NQ : q <> []) by apply (W _ _ Fq).
  assert (NE : folder <> []).
  { intros ->. apply is_prefix_spec in PR. destruct PR as [r PR]. destruct q; [easy|discriminate]. }
  unfold universe_folder. destruct folder as [|a p] eqn:EF; [easy|]. rewrite <- EF in *. clear EF a p.
  rewrite exists_path_spec by exact W.
  apply is_prefix_spec in PR. destruct PR as [r PR].
  destruct (f folder) as [n|] eqn:E.
  - destruct r as [|y r].
    + rewrite app_nil_r in PR. subst q. unfold rmtree. rewrite E. replace n with (File c) by congruence.
      reflexivity.
    + rewrite PR in E. rewrite (wf_ancestors f W (y :: r) q n NQ) in Fq;
        [discriminate|discriminate|exact E].
  - unfold ensure_path. rewrite removelast_last. unfold ensure_dir.
    rewrite exists_path_spec by exact W. rewrite E.
    rewrite (makedirs_blocked (length folder) folder f q c); auto.
    apply is_prefix_spec. now exists r.
Qed.
