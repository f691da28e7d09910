(** Lemmas about [ModelSeeds]. *)
From Coq Require Import Reals Lra.
From Verif Require Import Base BaseProofs Num ModelEvent ModelCell ModelSeeds CellProofs.
Set Implicit Arguments.

Section Seeds.
Context (N : NumOps).

Lemma combine_seq_filter (wts : list N) (p : N -> bool) (i : nat) b :
  In i (map fst (filter (fun '(_, w) => p w) (combine (seq b (length wts)) wts))) <->
  b <= i /\ exists w, nth_error wts (i - b) = Some w /\ p w = true.
Proof.
  revert b. induction wts as [|w t IH]; intros b; cbn.
  - split; [tauto|]. intros [_ (w & H & _)]. destruct (i - b); discriminate.
  - assert (Hrest : In i (map fst (filter (fun '(_, w) => p w) (combine (seq (S b) (length t)) t))) <->
      S b <= i /\ exists w, nth_error t (i - S b) = Some w /\ p w = true) by apply IH.
    assert (Hsub : S b <= i -> i - b = S (i - S b)) by lia.
    destruct (p w) eqn:E; cbn [map In fst].
    + rewrite Hrest. split.
      * intros [<-|[H1 H2]].
        -- split; auto. rewrite Nat.sub_diag. cbn. eauto.
        -- split; [lia|]. rewrite (Hsub H1). exact H2.
      * intros [H1 H2]. destruct (Nat.eq_dec b i); auto. right. split; [lia|].
        rewrite Hsub in H2 by lia. exact H2.
    + rewrite Hrest. split.
      * intros [H1 H2]. split; [lia|]. rewrite (Hsub H1). exact H2.
      * intros [H1 H2]. destruct (Nat.eq_dec b i) as [->|Hn].
        -- rewrite Nat.sub_diag in H2. cbn in H2. destruct H2 as (w' & H2 & H3). congruence.
        -- split; [lia|]. rewrite Hsub in H2 by lia. exact H2.
Qed.

Lemma combine_seq_sorted (wts : list N) (p : N -> bool) b :
  StronglySorted lt (map fst (filter (fun '(_, w) => p w) (combine (seq b (length wts)) wts))).
Proof.
  revert b. induction wts as [|w t IH]; intros b; cbn; [constructor|].
  destruct (p w); cbn; auto. constructor; auto.
  apply Forall_forall. intros i Hi. apply combine_seq_filter in Hi. lia.
Qed.

Lemma StronglySorted_lt_NoDup l : StronglySorted lt l -> NoDup l.
Proof.
  induction 1 as [|a t _ IH H]; constructor; auto. intros Hin.
  rewrite Forall_forall in H. apply H in Hin. lia.
Qed.

Lemma key_of_nth (wts : list N) i w : nth_error wts i = Some w -> key_of wts i = w.
Proof. intros H. unfold key_of. apply nth_error_nth. exact H. Qed.

Lemma omap_central_nth (ws : weights_state N) wts i :
  omap central ws = Some wts -> nth_error wts i = weight_at ws i.
Proof.
  rewrite omap_spec. intros H. revert i. induction H as [|v w vs wts H _ IH]; intros [|i]; cbn.
  - reflexivity.
  - reflexivity.
  - unfold weight_at. cbn. symmetry. exact H.
  - unfold weight_at. cbn. apply IH.
Qed.

Lemma select_seeds_spec sort (D : N -> Prop) strategy (ws : weights_state N) seeds :
  sort_ok sort -> order_on N D ->
  (forall i w, weight_at ws i = Some w -> D w) ->
  select_seeds sort strategy ws = Some seeds ->
  NoDup seeds /\
  (forall i, In i seeds <-> exists w, weight_at ws i = Some w /\ nltb w n0 = true) /\
  (strategy = Next -> StronglySorted lt seeds) /\
  (strategy = MostNegative ->
     StronglySorted (fun i j => forall wi wj, weight_at ws i = Some wi -> weight_at ws j = Some wj ->
                                 nleb wi wj = true) seeds) /\
  (strategy = LeastNegative ->
     StronglySorted (fun i j => forall wi wj, weight_at ws i = Some wi -> weight_at ws j = Some wj ->
                                 nleb wj wi = true) seeds).
Proof.
  intros Hsort Hord HD H. unfold select_seeds in H.
  destruct (omap central ws) as [wts|] eqn:E; [|discriminate]. injection H as <-.
  pose proof (fun i => omap_central_nth ws i E) as Hnth.
  set (neg := map fst _).
  assert (Hin : forall i, In i neg <-> exists w, weight_at ws i = Some w /\ nltb w n0 = true).
  { intros i. unfold neg. rewrite combine_seq_filter. rewrite Nat.sub_0_r, Hnth. intuition lia. }
  assert (Hs : StronglySorted lt neg) by apply combine_seq_sorted.
  assert (Hkey : forall i, In i neg -> exists w, weight_at ws i = Some w /\ key_of wts i = w /\ D w).
  { intros i Hi. apply Hin in Hi. destruct Hi as (w & Hw & _). exists w. split; auto. split.
    - apply key_of_nth. rewrite Hnth. auto.
    - eauto. }
  destruct Hord as ((Htot & Htr) & _).
  assert (Hpre : total_preorder_on (fun x => In x neg)
     (fun n m => nleb (key_of wts n) (key_of wts m))).
  { split.
    - intros x y Hx Hy. destruct (Hkey x Hx) as (wx & _ & -> & Dx), (Hkey y Hy) as (wy & _ & -> & Dy). auto.
    - intros x y z Hx Hy Hz. destruct (Hkey x Hx) as (wx & _ & -> & Dx), (Hkey y Hy) as (wy & _ & -> & Dy),
        (Hkey z Hz) as (wz & _ & -> & Dz). eauto. }
  assert (Hpre' : total_preorder_on (fun x => In x neg)
     (fun n m => nleb (key_of wts m) (key_of wts n))).
  { destruct Hpre as [P1 P2]. split.
    - intros x y Hx Hy. apply or_comm. auto.
    - intros x y z Hx Hy Hz H1 H2. eapply (P2 z y x); eauto. }
  destruct strategy.
  - (* least negative *)
    destruct (Hsort _ _ neg Hpre') as [Hp Ho]. split; [|split; [|split; [|split]]]; try discriminate.
    + eapply Permutation_NoDup; [exact Hp|]. apply StronglySorted_lt_NoDup. exact Hs.
    + intros i. rewrite <- Hin. split; apply Permutation_in; auto using Permutation_sym.
    + intros _. unfold ordered in Ho. revert Ho. clear -Hkey Hp.
      assert (Hk : forall i, In i (sort nat (fun n m => nleb (key_of wts m) (key_of wts n)) neg) -> In i neg)
        by (intros i; apply Permutation_in, Permutation_sym; exact Hp).
      revert Hk. generalize (sort nat (fun n m => nleb (key_of wts m) (key_of wts n)) neg).
      intros l Hk Ho. induction Ho as [|a t _ IH Ha]; constructor.
      * apply IH. intros i Hi. apply Hk. right; auto.
      * rewrite Forall_forall in *. intros j Hj wi wj Hi' Hj'.
        specialize (Ha j Hj). destruct (Hkey a (Hk a (or_introl eq_refl))) as (w1 & E1 & K1 & _).
        destruct (Hkey j (Hk j (or_intror Hj))) as (w2 & E2 & K2 & _). congruence.
  - destruct (Hsort _ _ neg Hpre) as [Hp Ho]. split; [|split; [|split; [|split]]]; try discriminate.
    + eapply Permutation_NoDup; [exact Hp|]. apply StronglySorted_lt_NoDup. exact Hs.
    + intros i. rewrite <- Hin. split; apply Permutation_in; auto using Permutation_sym.
    + intros _. unfold ordered in Ho. revert Ho. clear -Hkey Hp.
      assert (Hk : forall i, In i (sort nat (fun n m => nleb (key_of wts n) (key_of wts m)) neg) -> In i neg)
        by (intros i; apply Permutation_in, Permutation_sym; exact Hp).
      revert Hk. generalize (sort nat (fun n m => nleb (key_of wts n) (key_of wts m)) neg).
      intros l Hk Ho. induction Ho as [|a t _ IH Ha]; constructor.
      * apply IH. intros i Hi. apply Hk. right; auto.
      * rewrite Forall_forall in *. intros j Hj wi wj Hi' Hj'.
        specialize (Ha j Hj). destruct (Hkey a (Hk a (or_introl eq_refl))) as (w1 & E1 & K1 & _).
        destruct (Hkey j (Hk j (or_intror Hj))) as (w2 & E2 & K2 & _). congruence.
  - split; [|split; [|split; [|split]]]; try discriminate; auto.
    apply StronglySorted_lt_NoDup. exact Hs.
Qed.

Lemma select_seeds_some sort strategy (ws : weights_state N) :
  (exists seeds, select_seeds sort strategy ws = Some seeds) <-> Forall (fun w => w <> []) ws.
Proof.
  unfold select_seeds. split.
  - intros [s H]. destruct (omap central ws) as [wts|] eqn:E; [|discriminate].
    apply omap_spec in E. clear H. induction E as [|v w vs l Hv _ IH]; constructor; auto.
    intros ->. discriminate.
  - intros H. assert (exists wts, omap central ws = Some wts) as [wts ->]; [|eauto].
    induction H as [|v vs Hv _ [l IH]]; cbn; eauto. rewrite IH.
    destruct v; cbn; [congruence|eauto].
Qed.

End Seeds.
