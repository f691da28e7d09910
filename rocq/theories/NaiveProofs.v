(** Lemmas about [ModelNaive]. *)
From Verif Require Import Base BaseProofs Num ModelNaive SpecSearch.
Set Implicit Arguments.

Lemma argmin_from_spec A (leb : A -> A -> bool) (P : A -> Prop) t best bpos (l : list A) :
  total_preorder_on P leb -> P best -> Forall P t ->
  nth_error l bpos = Some best -> bpos < length l ->
  (forall y, In y l -> P y -> leb best y = true) ->
  let r := argmin_from leb best bpos (length l) t in
  exists x, nth_error (l ++ t) r = Some x /\ forall y, In y (l ++ t) -> P y -> leb x y = true.
Proof.
  intros Hpre. destruct Hpre as [Htot Htr].
  revert best bpos l. induction t as [|z t IH]; intros best bpos l Hb HP Hn Hlt Hmin; cbn.
  - rewrite app_nil_r. eauto.
  - inversion HP as [|? ? Hz Ht]; subst.
    replace (l ++ z :: t) with ((l ++ [z]) ++ t) by (rewrite <- app_assoc; reflexivity).
    replace (S (length l)) with (length (l ++ [z])) by (rewrite app_length; cbn; lia).
    destruct (leb best z) eqn:E.
    + apply IH; auto.
      * rewrite nth_error_app1; auto.
      * rewrite app_length; lia.
      * intros y Hy Py. apply in_app_or in Hy. destruct Hy as [Hy|[<-|[]]]; auto.
    + apply IH; auto.
      * rewrite nth_error_app2, Nat.sub_diag by lia. reflexivity.
      * rewrite app_length; cbn; lia.
      * assert (Hzb : leb z best = true) by (destruct (Htot best z Hb Hz); congruence).
        intros y Hy Py. apply in_app_or in Hy. destruct Hy as [Hy|[<-|[]]].
        -- apply (Htr z best y); auto.
        -- destruct (Htot z z Hz Hz); auto.
Qed.

Lemma first_min_ok : choose_ok first_min.
Proof.
  intros A leb l Hpre. unfold first_min. destruct l as [|x t]; auto.
  destruct (@argmin_from_spec A leb (fun y => In y (x :: t)) t x 0 [x]) as (y & Hy & Hmin); auto.
  - left; auto.
  - apply Forall_forall. intros y Hy. right; auto.
  - intros y [<-|[]] _. destruct Hpre as [Htot _]. destruct (Htot x x); auto; left; auto.
  - exists y. split; auto.
Qed.

Section Naive.
Context (N : NumOps) (D : N -> Prop).
Hypothesis Hord : order_on N D.

Definition keys_ok (it : NaiveIter N) := forall i, In i (ni_cand it) -> D (ni_key it i).

Lemma naive_pre (it : NaiveIter N) : keys_ok it ->
  total_preorder_on (fun i => In i (ni_cand it)) (fun i j => nleb (ni_key it i) (ni_key it j)).
Proof.
  intros HD. destruct Hord as [[Htot Htr] _]. split.
  - intros x y Hx Hy. apply Htot; apply HD; auto.
  - intros x y z Hx Hy Hz. apply Htr; apply HD; auto.
Qed.

Lemma naive_run_spec choose fuel (it : NaiveIter N) l it' :
  choose_ok choose -> D (ni_max it) -> keys_ok it -> NoDup (ni_cand it) ->
  length (ni_cand it) <= fuel ->
  naive_run fuel choose it = (l, it') ->
  NoDup (map fst l) /\
  (forall i, In i (map fst l) <-> In i (ni_cand it) /\ nleb (ni_key it i) (ni_max it) = true) /\
  Forall (fun x => snd x = ni_key it (fst x)) l /\
  StronglySorted (fun x y => nleb (snd x) (snd y) = true) l /\
  naive_next choose it' = None.
Proof.
  intros Hch HDm. revert it l it' HDm.
  induction fuel as [|fuel IH]; intros it l it' HDm HD Hnd Hf H; cbn in H.
  - injection H as <- <-. destruct (ni_cand it) as [|] eqn:E; [|cbn in Hf; lia].
    cbn. repeat split; try constructor; try tauto.
    unfold naive_next. pose proof (Hch _ _ _ (naive_pre HD)) as Hc.
    destruct (choose _ _ (ni_cand it)); auto. destruct Hc as (x & Hx & _).
    rewrite E in Hx. destruct n; discriminate.
  - destruct (naive_next choose it) as [[x it1]|] eqn:E.
    + destruct (naive_run fuel choose it1) as [l1 it2] eqn:Er. injection H as <- <-.
      unfold naive_next in E. pose proof (Hch _ _ _ (naive_pre HD)) as Hc.
      destruct (choose _ _ (ni_cand it)) as [pos|]; [|discriminate].
      destruct Hc as (idx & Hidx & Hmin). rewrite Hidx in E.
      destruct (nleb (ni_key it idx) (ni_max it)) eqn:Em; [|discriminate].
      destruct (swap_remove pos (ni_cand it)) as [c|] eqn:Es; [|discriminate].
      injection E as <- <-.
      apply swap_remove_perm in Es. destruct Es as (y & Hy & Hp).
      rewrite Hidx in Hy. injection Hy as <-.
      assert (Hkey : forall i, ni_key {| ni_dist := ni_dist it; ni_cand := c; ni_max := ni_max it |} i = ni_key it i) by reflexivity.
      assert (Hnd1 : NoDup (idx :: c)) by (eapply Permutation_NoDup; eauto).
      inversion Hnd1 as [|? ? Hni Hndc]; subst.
      apply IH in Er; auto.
      2:{ intros i Hi. rewrite Hkey. apply HD. cbn in Hi.
          eapply Permutation_in; [apply Permutation_sym; exact Hp|right; auto]. }
      2:{ cbn. apply Permutation_length in Hp. cbn in Hp. lia. }
      destruct Er as (R1 & R2 & R3 & R4 & R5). cbn [ni_cand ni_max] in R2.
      assert (Hinc : forall i, In i (ni_cand it) <-> idx = i \/ In i c).
      { intros i. split; [intros Hi; apply (Permutation_in _ Hp) in Hi; exact Hi|].
        intros Hi. apply (Permutation_in _ (Permutation_sym Hp)). exact Hi. }
      repeat split.
      * cbn. constructor; auto. intros Hin. apply R2 in Hin. tauto.
      * cbn in H. destruct H as [<-|H]; [apply Hinc; auto|]. apply R2 in H. apply Hinc; tauto.
      * cbn in H. destruct H as [<-|H]; auto. apply R2 in H. apply H.
      * intros [H1 H2]. cbn. apply Hinc in H1. destruct H1 as [H1|H1]; auto. right.
        apply R2. auto.
      * constructor; auto.
      * constructor; auto. apply Forall_forall. intros [j d] Hj. cbn.
        rewrite Forall_forall in R3. pose proof (R3 _ Hj) as Hd. cbn in Hd. rewrite Hd.
        rewrite Hkey. apply Hmin. apply Hinc. right. apply (in_map fst) in Hj. cbn in Hj.
        apply R2 in Hj. tauto.
      * auto.
    + injection H as <- <-. repeat split; try constructor; try (cbn in *; tauto); auto.
      cbn. intros [Hi Hle].
      unfold naive_next in E. pose proof (Hch _ _ _ (naive_pre HD)) as Hc.
      destruct (choose _ _ (ni_cand it)) as [pos|]; [|rewrite Hc in Hi; destruct Hi].
      destruct Hc as (idx & Hidx & Hmin). rewrite Hidx in E.
      assert (Em : nleb (ni_key it idx) (ni_max it) = true).
      { destruct Hord as [[Htot Htr] _]. apply (Htr _ (ni_key it i) _); auto.
        apply HD. eapply nth_error_In; eauto. }
      rewrite Em in E. destruct (swap_remove_some (ni_cand it) (i := pos)) as [c Hc].
      { apply nth_error_Some. congruence. }
      rewrite Hc in E. discriminate.
Qed.

Lemma ni_key_map npoints (dist : nat -> nat -> N) q c m i :
  i < npoints -> ni_key (mkNaive (map (fun id => (id, dist id q)) (seq 0 npoints)) c m) i = dist i q.
Proof.
  intros Hi. unfold ni_key. cbn.
  rewrite nth_error_map, (nth_error_nth' (seq 0 npoints) 0) by (rewrite seq_length; lia).
  cbn. rewrite seq_nth by lia. reflexivity.
Qed.

Lemma naive_nearest_ok choose npoints dist max q :
  choose_ok choose -> D max -> (forall i, i < npoints -> D (dist i q)) -> q < npoints ->
  exists res, naive_nearest choose npoints dist max q = Some res /\
              nearest_list npoints q (fun i => dist i q) max res.
Proof.
  intros Hch HDm HD Hq. unfold naive_nearest, naive_new.
  rewrite map_length, seq_length.
  destruct (swap_remove_some (seq 0 npoints) (i := q)) as [c Hc]; [rewrite seq_length; auto|].
  rewrite Hc. apply swap_remove_perm in Hc. destruct Hc as (x & Hx & Hp).
  rewrite (nth_error_nth' _ 0) in Hx by (rewrite seq_length; auto).
  rewrite seq_nth in Hx by auto. injection Hx as <-. cbn in Hp.
  set (it := mkNaive _ c max).
  assert (Hnd : NoDup (q :: c)) by (eapply Permutation_NoDup; [exact Hp|apply seq_NoDup]).
  assert (Hin : forall i, In i c <-> i < npoints /\ i <> q).
  { intros i. inversion Hnd; subst. split.
    - intros Hi. split; [|congruence].
      assert (In i (seq 0 npoints)) by (eapply Permutation_in; [apply Permutation_sym; exact Hp|right; auto]).
      apply in_seq in H. lia.
    - intros [Hi Hn]. assert (Hs : In i (q :: c)) by
        (eapply Permutation_in; [exact Hp|apply in_seq; lia]). destruct Hs; congruence. }
  destruct (naive_run (length (ni_cand it)) choose it) as [l it'] eqn:Er.
  exists l. split; [reflexivity|].
  apply naive_run_spec in Er; auto.
  - destruct Er as (R1 & R2 & R3 & R4 & R5). split; [|split; [|split]]; auto.
    + intros i. rewrite R2. cbn [ni_cand ni_max it]. rewrite Hin. split.
      * intros [[H1 H2] H3]. unfold it in H3. rewrite ni_key_map in H3 by auto. auto.
      * intros (H1 & H2 & H3). unfold it. rewrite ni_key_map by auto. auto.
    + apply Forall_forall. intros [i d] Hi. cbn. rewrite Forall_forall in R3.
      pose proof (R3 _ Hi) as Hd. cbn in Hd. rewrite Hd. unfold it. apply ni_key_map.
      apply (in_map fst) in Hi. cbn in Hi. apply R2 in Hi. cbn in Hi. apply Hin. tauto.
  - intros i Hi. cbn in Hi. apply Hin in Hi. unfold it. rewrite ni_key_map by tauto. apply HD; tauto.
  - cbn. inversion Hnd; auto.
Qed.

End Naive.
