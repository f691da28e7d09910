(** Lemmas about the list vocabulary of [Base]. *)
From Verif Require Import Base.
Set Implicit Arguments.

Lemma set_nth_spec A i (x : A) l l' :
  set_nth i x l = Some l' ->
  i < length l /\ length l' = length l /\
  forall j, nth_error l' j = if Nat.eqb j i then Some x else nth_error l j.
Proof.
  revert l l'. induction i as [|i IH]; intros [|a t] l' H; cbn in H; try discriminate.
  - injection H as <-. cbn. repeat split; try lia. intros [|j]; reflexivity.
  - destruct (set_nth i x t) as [t'|] eqn:E; [|discriminate]. injection H as <-.
    destruct (IH _ _ E) as (H1 & H2 & H3). cbn. repeat split; try lia.
    intros [|j]; cbn; [reflexivity|apply H3].
Qed.

Lemma set_nth_some A i (x : A) l : i < length l -> exists l', set_nth i x l = Some l'.
Proof.
  revert l. induction i as [|i IH]; intros [|a t] H; cbn in *; try lia; eauto.
  destruct (IH t ltac:(lia)) as [t' ->]. eauto.
Qed.

Lemma set_nth_none A i (x : A) l : length l <= i -> set_nth i x l = None.
Proof.
  revert l. induction i as [|i IH]; intros [|a t] H; cbn in *; try lia; eauto.
  rewrite IH by lia. reflexivity.
Qed.

Lemma nth_error_ext A (l l' : list A) :
  (forall i, nth_error l i = nth_error l' i) -> l = l'.
Proof.
  revert l'. induction l as [|a t IH]; intros [|b t'] H; auto.
  - specialize (H 0); discriminate.
  - specialize (H 0); discriminate.
  - f_equal. + specialize (H 0); cbn in H; congruence.
    + apply IH. intros i. apply (H (S i)).
Qed.

Lemma set_nth_split A i (x y : A) l :
  nth_error l i = Some y ->
  exists l1 l2, l = l1 ++ y :: l2 /\ length l1 = i /\ set_nth i x l = Some (l1 ++ x :: l2).
Proof.
  revert l. induction i as [|i IH]; intros [|a t] H; cbn in *; try discriminate.
  - injection H as ->. exists [], t. auto.
  - destruct (IH _ H) as (l1 & l2 & -> & <- & ->). exists (a :: l1), l2. auto.
Qed.

Lemma swap_perm A i j (l l' : list A) : swap i j l = Some l' -> Permutation l l'.
Proof.
  unfold swap. destruct (nth_error l i) as [x|] eqn:Ei; [|discriminate].
  destruct (nth_error l j) as [y|] eqn:Ej; [|discriminate].
  destruct (set_nth_split _ y _ Ei) as (l1 & l2 & -> & Hl1 & ->).
  intros H. destruct (Nat.eq_dec j i) as [->|Hji].
  - assert (y = x) by congruence. subst y.
    apply set_nth_spec in H. destruct H as (_ & _ & H).
    replace l' with (l1 ++ x :: l2); [reflexivity|].
    apply nth_error_ext. intros k. rewrite H.
    destruct (Nat.eqb_spec k i); auto. subst k. rewrite nth_error_app2 by lia.
    rewrite Hl1, Nat.sub_diag. reflexivity.
  - assert (Hn : nth_error (l1 ++ y :: l2) j = Some y).
    { destruct (Nat.lt_ge_cases j i).
      - rewrite nth_error_app1 in * by lia. exact Ej.
      - rewrite nth_error_app2 in * by lia.
        destruct (j - length l1) as [|k] eqn:E; [lia|]. exact Ej. }
    destruct (set_nth_split _ x _ Hn) as (k1 & k2 & Hk & Hlk & E).
    rewrite E in H. injection H as <-.
    apply (Permutation_cons_inv (a := y)).
    transitivity (x :: (l1 ++ y :: l2)).
    { rewrite <- !Permutation_middle. apply perm_swap. }
    rewrite Hk. rewrite <- !Permutation_middle. apply perm_swap.
Qed.

Lemma swap_some A i j (l : list A) :
  i < length l -> j < length l -> exists l', swap i j l = Some l'.
Proof.
  intros Hi Hj. unfold swap.
  destruct (nth_error l i) as [x|] eqn:Ei; [|apply nth_error_None in Ei; lia].
  destruct (nth_error l j) as [y|] eqn:Ej; [|apply nth_error_None in Ej; lia].
  destruct (set_nth_some y l Hi) as [l' E]. rewrite E.
  apply set_nth_spec in E. apply set_nth_some. lia.
Qed.

Lemma swap_remove_perm A i (l l' : list A) :
  swap_remove i l = Some l' -> exists x, nth_error l i = Some x /\ Permutation l (x :: l').
Proof.
  unfold swap_remove. destruct (nth_error l i) as [x|] eqn:Ei; [|discriminate].
  destruct (nth_error l (length l - 1)) as [y|] eqn:Ey; [|discriminate].
  intros H. exists x. split; auto.
  assert (Hl : length l <> 0) by (destruct l; cbn in *; [destruct i|]; congruence).
  assert (Hs : l = firstn (length l - 1) l ++ [y]).
  { rewrite <- (firstn_skipn (length l - 1) l) at 1. f_equal.
    apply nth_error_split in Ey. destruct Ey as (a & b & Hab & Hla).
    assert (b = []) by (apply (f_equal (@length A)) in Hab; rewrite app_length in Hab;
      cbn in Hab; destruct b; auto; cbn in Hab; lia). subst b.
    rewrite Hab at 2. rewrite skipn_app, <- Hla, skipn_all, Nat.sub_diag. reflexivity. }
  destruct (Nat.eqb_spec i (length l - 1)) as [->|Hne].
  - assert (x = y) by congruence. subst y. injection H as <-.
    rewrite Hs at 1. rewrite <- Permutation_cons_append. reflexivity.
  - assert (Ei' : nth_error (firstn (length l - 1) l) i = Some x).
    { rewrite Hs in Ei. rewrite nth_error_app1 in Ei; auto.
      rewrite firstn_length. assert (i < length l) by (apply nth_error_Some; rewrite Hs;
        congruence). lia. }
    destruct (set_nth_split _ y _ Ei') as (l1 & l2 & Hk & Hlk & E).
    rewrite E in H. injection H as <-.
    rewrite Hs, Hk. rewrite <- Permutation_cons_append.
    rewrite <- !Permutation_middle. apply perm_swap.
Qed.

Lemma swap_remove_some A i (l : list A) :
  i < length l -> exists l', swap_remove i l = Some l'.
Proof.
  intros Hi. unfold swap_remove.
  destruct (nth_error l i) as [x|] eqn:Ei; [|apply nth_error_None in Ei; lia].
  destruct (nth_error l (length l - 1)) as [y|] eqn:Ey; [|apply nth_error_None in Ey; lia].
  destruct (Nat.eqb_spec i (length l - 1)); eauto.
  apply set_nth_some. rewrite firstn_length. lia.
Qed.

(** *** Sorting *)
Lemma insert_perm A (leb : A -> A -> bool) x l : Permutation (x :: l) (insert leb x l).
Proof.
  induction l as [|y t IH]; cbn; auto. destruct (leb x y); auto.
  rewrite perm_swap. constructor. exact IH.
Qed.

Lemma isort_perm A (leb : A -> A -> bool) l : Permutation l (isort leb l).
Proof.
  induction l as [|x t IH]; cbn; auto. rewrite <- insert_perm. constructor. exact IH.
Qed.

Lemma insert_ordered A (leb : A -> A -> bool) x l :
  total_preorder_on (fun y => In y (x :: l)) leb -> ordered leb l -> ordered leb (insert leb x l).
Proof.
  intros [Htot Htr] H. induction H as [|y t Ht IH Hy]; cbn.
  - constructor; constructor.
  - destruct (leb x y) eqn:E.
    + constructor; [constructor; auto|]. constructor; auto.
      rewrite Forall_forall in *. intros z Hz.
      apply Htr with y; cbn; auto.
    + constructor.
      * apply IH. { intros a b Ha Hb. apply Htot; cbn in *; tauto. }
        intros a b c Ha Hb Hc. apply Htr; cbn in *; tauto.
      * rewrite Forall_forall in *. intros z Hz.
        apply (Permutation_in _ (Permutation_sym (insert_perm leb x t))) in Hz.
        destruct Hz as [<-|Hz]; auto.
        destruct (Htot x y ltac:(cbn; auto) ltac:(cbn; auto)); congruence.
Qed.

Lemma total_preorder_sub A (P Q : A -> Prop) leb :
  (forall x, Q x -> P x) -> total_preorder_on P leb -> total_preorder_on Q leb.
Proof. intros H [H1 H2]. split; eauto. Qed.

Lemma isort_ok : sort_ok isort.
Proof.
  intros A leb l H. split; [apply isort_perm|].
  induction l as [|x t IH]; cbn; [constructor|].
  apply insert_ordered.
  - eapply total_preorder_sub; [|exact H]. cbn. intros y [<-|Hy]; auto.
    right. eapply Permutation_in; [|exact Hy]. symmetry. apply isort_perm.
  - apply IH. eapply total_preorder_sub; [|exact H]. cbn; auto.
Qed.

(** Two ordered permutations of each other are equal when the order is antisymmetric. *)
Lemma ordered_perm_unique A (leb : A -> A -> bool) l l' :
  (forall x y, In x l -> In y l -> leb x y = true -> leb y x = true -> x = y) ->
  ordered leb l -> ordered leb l' -> Permutation l l' -> l = l'.
Proof.
  intros Hanti H. revert l'. induction H as [|x t Ht IH Hx]; intros l' H' Hp.
  - apply Permutation_nil in Hp. congruence.
  - destruct H' as [|y t' Ht' Hy].
    + apply Permutation_sym, Permutation_nil in Hp. discriminate.
    + assert (x = y).
      { assert (Hiny : In y (x :: t)) by
          (eapply Permutation_in; [apply Permutation_sym; exact Hp|left; auto]).
        assert (Hinx : In x (y :: t')) by
          (eapply Permutation_in; [exact Hp|left; auto]).
        rewrite Forall_forall in *.
        destruct Hiny as [|Hiny]; auto. destruct Hinx as [|Hinx]; auto.
        apply Hanti; cbn; auto. }
      subst y. f_equal. apply IH; auto.
      * intros a b Ha Hb. apply Hanti; cbn; auto.
      * eapply Permutation_cons_inv; exact Hp.
Qed.

Lemma ordered_sorted A (leb : A -> A -> bool) l :
  ordered leb l -> Sorted (fun x y => leb x y = true) l.
Proof. apply StronglySorted_Sorted. Qed.

Lemma ordered_app A (leb : A -> A -> bool) l1 l2 :
  ordered leb (l1 ++ l2) <->
  ordered leb l1 /\ ordered leb l2 /\ forall x y, In x l1 -> In y l2 -> leb x y = true.
Proof.
  induction l1 as [|a t IH]; cbn.
  - split; [intros H; split; [constructor|split;[auto|tauto]]|tauto].
  - split.
    + intros H. inversion H as [|? ? H1 H2]; subst. apply IH in H1. destruct H1 as (H1 & H3 & H4).
      rewrite Forall_forall in H2. repeat split; auto.
      * constructor; auto. rewrite Forall_forall. intros x Hx. apply H2, in_app_iff; auto.
      * intros x y [<-|Hx] Hy; auto. apply H2, in_app_iff; auto.
    + intros (H1 & H2 & H3). inversion H1 as [|? ? H4 H5]; subst. constructor.
      * apply IH. auto.
      * rewrite Forall_forall in *. intros x Hx. apply in_app_iff in Hx. destruct Hx; auto.
Qed.

Lemma ordered_nth A (leb : A -> A -> bool) l i j x y :
  ordered leb l -> i < j -> nth_error l i = Some x -> nth_error l j = Some y -> leb x y = true.
Proof.
  intros H. revert i j. induction H as [|a t Ht IH Ha]; intros i j Hij Hi Hj.
  - destruct i; discriminate.
  - destruct i as [|i], j as [|j]; cbn in *; try lia.
    + injection Hi as ->. rewrite Forall_forall in Ha. apply Ha. eapply nth_error_In; eauto.
    + apply (IH i j); auto; lia.
Qed.

(** *** Monadic traversals *)
Lemma omap_spec A B (f : A -> option B) l l' :
  omap f l = Some l' <-> Forall2 (fun a b => f a = Some b) l l'.
Proof.
  revert l'. induction l as [|a t IH]; intros l'; cbn.
  - split; [intros H; injection H as <-; constructor|].
    intros H; inversion H; reflexivity.
  - destruct (f a) as [b|] eqn:E.
    + destruct (omap f t) as [bs|] eqn:E'.
      * split.
        { intros H; injection H as <-. constructor; auto. apply IH; auto. }
        intros H. inversion H as [|? b' ? bs' H1 H2]; subst. apply IH in H2. congruence.
      * split; [discriminate|]. intros H. inversion H as [|? b' ? bs' H1 H2]; subst.
        apply IH in H2. discriminate.
    + split; [discriminate|]. intros H. inversion H; congruence.
Qed.

Lemma Forall2_len A B (P : A -> B -> Prop) l l' : Forall2 P l l' -> length l = length l'.
Proof. induction 1; cbn; auto. Qed.

Lemma omap_length A B (f : A -> option B) l l' : omap f l = Some l' -> length l' = length l.
Proof. rewrite omap_spec. intros H. symmetry. eapply Forall2_len; eauto. Qed.

Lemma ofold_app A S (f : S -> A -> option S) l1 l2 s :
  ofold f (l1 ++ l2) s = match ofold f l1 s with Some s' => ofold f l2 s' | None => None end.
Proof.
  revert s. induction l1 as [|a t IH]; intros s; cbn; auto.
  destruct (f s a); auto.
Qed.

Lemma ofold_inv A S (f : S -> A -> option S) (P : S -> Prop) l s s' :
  (forall a s1 s2, In a l -> P s1 -> f s1 a = Some s2 -> P s2) ->
  P s -> ofold f l s = Some s' -> P s'.
Proof.
  revert s. induction l as [|a t IH]; intros s Hf HP H; cbn in *.
  - congruence.
  - destruct (f s a) as [s1|] eqn:E; [|discriminate].
    eapply IH; [| eapply Hf; [left; reflexivity|exact HP|exact E] | exact H].
    intros b s2 s3 Hb. apply Hf. auto.
Qed.
