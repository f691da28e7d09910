(** Proofs about the log of a run. *)
From Coq Require Import Reals Lra ZArith.
From Verif Require Import Base BaseProofs Num ModelEvent ModelCell ModelSeeds ModelResampler ModelCres ModelLog SpecWeights SpecLocal SpecUnweight SpecCres SpecLog
  SumProofs CellProofs RunProofs RunProofs2 UnweightProofs CresProofs CresProofs2 SpecSearch ModelConc SpecConc ConcProofs2 ModelThreads ThreadsProofs OrderProofs.
From Coq Require Import Lia.

(** *** Categories *)
Lemma entry_cmp_eq a b : entry_cmp a b = Eq <-> a = b.
Proof.
  unfold entry_cmp. destruct a as [a n], b as [b m]; cbn [fst snd]. destruct (Z.compare_spec a b) as [->|H|H].
  - rewrite Nat.compare_eq_iff. split; [intros ->; reflexivity|]. intros E. injection E as ->. reflexivity.
  - split; [discriminate|]. intros E. injection E as -> _. lia.
  - split; [discriminate|]. intros E. injection E as -> _. lia.
Qed.
Lemma entry_cmp_antisym a b : entry_cmp b a = CompOpp (entry_cmp a b).
Proof.
  unfold entry_cmp. rewrite (Z.compare_antisym (fst a) (fst b)), (Nat.compare_antisym (snd a) (snd b)).
  destruct (Z.compare (fst a) (fst b)); reflexivity.
Qed.
Lemma entry_lt_trans a b c : entry_cmp a b = Lt -> entry_cmp b c = Lt -> entry_cmp a c = Lt.
Proof.
  unfold entry_cmp. destruct (Z.compare_spec (fst a) (fst b)), (Z.compare_spec (fst b) (fst c)), (Z.compare_spec (fst a) (fst c)); try discriminate; try lia; auto.
  rewrite !Nat.compare_lt_iff. lia.
Qed.

Lemma category_cmp_eq a b : category_cmp a b = Eq <-> a = b.
Proof.
  revert b. induction a as [|x a IH]; intros [|y b]; cbn [category_cmp]; try (split; [discriminate|discriminate]); [split; reflexivity|].
  destruct (entry_cmp x y) eqn:E.
  - apply entry_cmp_eq in E. subst y. rewrite IH. split; [intros ->; reflexivity|]. intros E. injection E as ->. reflexivity.
  - split; [discriminate|]. intros H. injection H as -> _. rewrite (proj2 (entry_cmp_eq y y) eq_refl) in E. discriminate.
  - split; [discriminate|]. intros H. injection H as -> _. rewrite (proj2 (entry_cmp_eq y y) eq_refl) in E. discriminate.
Qed.
Lemma category_cmp_antisym a b : category_cmp b a = CompOpp (category_cmp a b).
Proof.
  revert b. induction a as [|x a IH]; intros [|y b]; cbn [category_cmp]; try reflexivity.
  rewrite (entry_cmp_antisym x y). destruct (entry_cmp x y); cbn [CompOpp]; [apply IH|reflexivity|reflexivity].
Qed.
Lemma category_lt_trans a b c : category_cmp a b = Lt -> category_cmp b c = Lt -> category_cmp a c = Lt.
Proof.
  revert b c. induction a as [|x a IH]; intros [|y b] [|z c]; cbn [category_cmp]; try discriminate; auto.
  destruct (entry_cmp x y) eqn:E1; destruct (entry_cmp y z) eqn:E2; try discriminate.
  - apply entry_cmp_eq in E1, E2. subst y z. rewrite (proj2 (entry_cmp_eq x x) eq_refl). apply IH.
  - apply entry_cmp_eq in E1. subst y. rewrite E2. reflexivity.
  - apply entry_cmp_eq in E2. subst z. rewrite E1. reflexivity.
  - rewrite (entry_lt_trans _ _ _ E1 E2). reflexivity.
Qed.

Definition before (a b : category * nat) : Prop := snd b < snd a \/ snd a = snd b /\ category_cmp (fst a) (fst b) = Lt.
Lemma multiplicity_leb_spec a b : multiplicity_leb a b = true <-> a = b \/ before a b.
Proof.
  unfold multiplicity_leb, before. destruct (Nat.compare_spec (snd b) (snd a)) as [E|E|E].
  - destruct (category_cmp (fst a) (fst b)) eqn:C; (split; [|intros H]); auto.
    + intros _. left. apply category_cmp_eq in C. destruct a, b; cbn [fst snd] in *. subst. reflexivity.
    + discriminate.
    + destruct H as [->|[H|[_ H]]]; [rewrite (proj2 (category_cmp_eq _ _) eq_refl) in C; discriminate|lia|discriminate].
  - split; auto.
  - split; [discriminate|]. intros [->|[H|[H _]]]; lia.
Qed.
Lemma multiplicity_preorder P : total_preorder_on P multiplicity_leb.
Proof.
  split.
  - intros x y _ _. rewrite !multiplicity_leb_spec. unfold before.
    destruct (Nat.lt_trichotomy (snd x) (snd y)) as [H|[H|H]]; [right; right; left; exact H| |left; right; left; exact H].
    destruct (category_cmp (fst x) (fst y)) eqn:C.
    + left. left. apply category_cmp_eq in C. destruct x, y; cbn [fst snd] in *. subst. reflexivity.
    + left. right. right. auto.
    + right. right. right. split; [auto|]. rewrite category_cmp_antisym, C. reflexivity.
  - intros x y z _ _ _. rewrite !multiplicity_leb_spec. unfold before. intros [->|Hxy]; auto. intros [->|Hyz]; auto. right.
    destruct Hxy as [Hxy|[Hxy Cxy]], Hyz as [Hyz|[Hyz Cyz]]; [left; lia|left; lia|left; lia|]. right. split; [lia|]. eapply category_lt_trans; eauto.
Qed.
Lemma multiplicity_antisym a b : multiplicity_leb a b = true -> multiplicity_leb b a = true -> a = b.
Proof.
  rewrite !multiplicity_leb_spec. unfold before. intros [->|H1]; auto. intros [->|H2]; auto. exfalso.
  destruct H1 as [H1|[H1 C1]], H2 as [H2|[H2 C2]]; try lia. rewrite category_cmp_antisym, C1 in C2. discriminate.
Qed.

(** *** Counting *)
Definition tallies (m : list (category * nat)) (l : list category) : Prop :=
  NoDup (map fst m) /\ forall c n, In (c, n) m <-> 0 < n /\ count_occ kind_eq_dec l c = n.

Lemma count_entry_fst c m x : In x (map fst (count_entry c m)) <-> x = c \/ In x (map fst m).
Proof.
  induction m as [|[c' n] m IH]; cbn [count_entry map fst In]; [intuition|].
  destruct (category_cmp c c') eqn:C.
  - apply category_cmp_eq in C. subst c'. cbn [map fst In]. intuition congruence.
  - cbn [map fst In]. rewrite IH. tauto.
  - cbn [map fst In]. rewrite IH. tauto.
Qed.
Lemma count_entry_nodup c m : NoDup (map fst m) -> NoDup (map fst (count_entry c m)).
Proof.
  induction m as [|[c' n] m IH]; cbn [count_entry map fst]; intros H; [constructor; auto|].
  inversion H as [|? ? Hn Hd]; subst.
  destruct (category_cmp c c') eqn:C; cbn [map fst]; [constructor; auto| |];
  (constructor; [|apply IH; exact Hd]; rewrite count_entry_fst; intros [->|Hi]; [|exact (Hn Hi)];
   rewrite (proj2 (category_cmp_eq c c) eq_refl) in C; discriminate).
Qed.
Lemma count_entry_other c m x n : x <> c -> In (x, n) (count_entry c m) <-> In (x, n) m.
Proof.
  intros Hx. induction m as [|[c' k] m IH]; cbn [count_entry In].
  - split; [intros [E|[]]; congruence|intros []].
  - destruct (category_cmp c c') eqn:C; cbn [In]; [|rewrite IH; reflexivity|rewrite IH; reflexivity].
    apply category_cmp_eq in C. subst c'. split; (intros [E|H]; [congruence|auto]).
Qed.
Lemma count_entry_here c m n : NoDup (map fst m) -> In (c, n) (count_entry c m) <-> (n = 1 /\ ~ In c (map fst m)) \/ exists k, n = S k /\ In (c, k) m.
Proof.
  induction m as [|[c' k] m IH]; cbn [count_entry In map fst]; intros Hnd.
  - split; [intros [E|[]]; injection E as <-; left; auto|intros [[-> _]|(k & _ & [])]; auto].
  - inversion Hnd as [|? ? Hn Hd]; subst. destruct (category_cmp c c') eqn:C; cbn [In].
    + apply category_cmp_eq in C. subst c'. split.
      * intros [E|H]; [injection E as <-; right; exists k; auto|]. exfalso. apply Hn. apply (in_map fst) in H. exact H.
      * intros [[_ H]|(j & -> & [E|H])]; [exfalso; apply H; auto|injection E as ->; auto|]. exfalso. apply Hn. apply (in_map fst) in H. exact H.
    + rewrite (IH Hd). assert (Hc : c' <> c) by (intros ->; rewrite (proj2 (category_cmp_eq c c) eq_refl) in C; discriminate). split.
      * intros [E|[[-> H]|(j & -> & H)]]; [congruence|left; split; [auto|]; tauto|right; exists j; auto].
      * intros [[-> H]|(j & -> & [E|H])]; [right; left; tauto|congruence|right; right; exists j; auto].
    + rewrite (IH Hd). assert (Hc : c' <> c) by (intros ->; rewrite (proj2 (category_cmp_eq c c) eq_refl) in C; discriminate). split.
      * intros [E|[[-> H]|(j & -> & H)]]; [congruence|left; split; [auto|]; tauto|right; exists j; auto].
      * intros [[-> H]|(j & -> & [E|H])]; [right; left; tauto|congruence|right; right; exists j; auto].
Qed.
Lemma count_entry_tallies c m l : tallies m l -> tallies (count_entry c m) (c :: l).
Proof.
  intros [Hnd H]. split; [apply count_entry_nodup; exact Hnd|]. intros x n.
  destruct (kind_eq_dec x c) as [->|Hx].
  - rewrite (count_entry_here c _ n Hnd). rewrite count_occ_cons_eq by reflexivity. split.
    + intros [[-> Hi]|(k & -> & Hi)].
      * split; [lia|]. f_equal. destruct (count_occ kind_eq_dec l c) as [|k] eqn:E; [exact E|]. exfalso. apply Hi.
        apply (in_map fst m (c, S k)). apply H. split; [lia|exact E].
      * apply H in Hi. split; [lia|]. f_equal. apply Hi.
    + intros [Hn <-]. destruct (count_occ kind_eq_dec l c) as [|k] eqn:E.
      * left. split; [exact (f_equal S E)|]. intros Hi. apply in_map_iff in Hi as ([c0 k] & E' & Hi). cbn in E'. subst c0. apply H in Hi. lia.
      * right. exists (S k). split; [exact (f_equal S E)|]. apply H. split; [lia|exact E].
  - rewrite count_entry_other by exact Hx. rewrite H. rewrite count_occ_cons_neq by congruence. reflexivity.
Qed.
Lemma count_all (l : list category) : forall m l0, tallies m l0 -> tallies (fold_left (fun m c => count_entry c m) l m) (rev l ++ l0).
Proof.
  induction l as [|c l IH]; intros m l0 H; [exact H|]. cbn [fold_left rev]. rewrite <- app_assoc. cbn [app]. apply IH. apply count_entry_tallies. exact H.
Qed.
Lemma tallies_perm m m' l l' : Permutation m m' -> Permutation l l' -> tallies m l -> tallies m' l'.
Proof.
  intros Hm Hl [Hnd H]. split; [eapply Permutation_NoDup; [apply Permutation_map; exact Hm|exact Hnd]|].
  intros c n. rewrite <- (proj1 (Permutation_count_occ kind_eq_dec l l') Hl c). rewrite <- H.
  split; apply Permutation_in; [apply Permutation_sym; exact Hm|exact Hm].
Qed.
Lemma fold_left_map_out (N : NumOps) (events : list (Event N)) : forall m,
  fold_left (fun m e => count_entry (out_multiplicities e) m) events m = fold_left (fun m c => count_entry c m) (map kinds events) m.
Proof.
  induction events as [|e events IH]; intros m; [reflexivity|]. cbn [fold_left map]. rewrite IH. unfold out_multiplicities, kinds. f_equal. f_equal.
  apply map_ext. intros [? ?]. reflexivity.
Qed.

Definition all_kinds {N : NumOps} (sort : sorter) (hash : list (category * nat) -> list (category * nat)) (events : list (Event N)) : list (category * nat) :=
  sort _ multiplicity_leb (hash (fold_left (fun m e => count_entry (out_multiplicities e) m) events [])).

Lemma all_kinds_tallies (N : NumOps) sort hash (events : list (Event N)) : sort_ok sort -> reorders hash ->
  tallies (all_kinds sort hash events) (map kinds events) /\ ordered multiplicity_leb (all_kinds sort hash events).
Proof.
  intros Hs Hh. unfold all_kinds. set (m := fold_left _ _ _).
  destruct (Hs _ multiplicity_leb (hash m) (multiplicity_preorder _)) as [Hp Ho]. split; [|exact Ho].
  assert (Hm : tallies m (map kinds events)).
  { unfold m. rewrite fold_left_map_out. eapply tallies_perm; [apply Permutation_refl| |apply (count_all (map kinds events) [] [])].
    - rewrite app_nil_r. apply Permutation_sym, Permutation_rev.
    - split; [constructor|]. intros c n. cbn. lia. }
  eapply tallies_perm; [|apply Permutation_refl|exact Hm]. eapply Permutation_trans; [apply Hh|exact Hp].
Qed.
Lemma multiplicity_descending (all : list (category * nat)) : ordered multiplicity_leb all -> StronglySorted (fun a b => snd b <= snd a) all.
Proof.
  induction 1 as [|a l _ IH Ha]; constructor; auto. eapply Forall_impl; [|exact Ha]. intros b Hb. cbn beta in Hb.
  apply multiplicity_leb_spec in Hb as [->|[H|[H _]]]; lia.
Qed.
Lemma log_multiplicities_census (N : NumOps) sort hash (events : list (Event N)) : sort_ok sort -> reorders hash ->
  census events (all_kinds sort hash events) /\ census_lines (all_kinds sort hash events) (log_multiplicities sort hash events).
Proof.
  intros Hs Hh. destruct (all_kinds_tallies _ _ _ events Hs Hh) as [[H1 H2] H3]. split.
  - split; [exact H1|]. split; [exact H2|]. apply multiplicity_descending. exact H3.
  - unfold census_lines, log_multiplicities. fold (all_kinds sort hash events). change MAX_MULT_SHOWN with 1000. f_equal.
    apply map_ext. intros [? ?]. reflexivity.
Qed.

Lemma tallies_same m m' l : tallies m l -> tallies m' l -> Permutation m m'.
Proof.
  intros [H1 H2] [H3 H4]. apply NoDup_Permutation.
  - eapply NoDup_map_inv. exact H1.
  - eapply NoDup_map_inv. exact H3.
  - intros [c n]. rewrite H2, H4. reflexivity.
Qed.
Lemma all_kinds_unique (N : NumOps) sort sort' hash hash' (events events' : list (Event N)) : sort_ok sort -> sort_ok sort' -> reorders hash -> reorders hash' ->
  Permutation events events' -> all_kinds sort hash events = all_kinds sort' hash' events'.
Proof.
  intros Hs Hs' Hh Hh' Hp. destruct (all_kinds_tallies _ _ _ events Hs Hh) as [T O]. destruct (all_kinds_tallies _ _ _ events' Hs' Hh') as [T' O'].
  apply (sorted_perm_eq (category * nat) (fun x y => multiplicity_leb x y = true)); [|exact O|exact O'|].
  - eapply tallies_same; [exact T|]. eapply tallies_perm; [apply Permutation_refl| |exact T']. apply Permutation_map, Permutation_sym. exact Hp.
  - intros x y _ _. apply multiplicity_antisym.
Qed.

Lemma count_sum m (l : list category) : tallies m l -> list_sum (map snd m) = length l.
Proof.
  revert l. induction m as [|[c n] m IH]; intros l [Hnd H].
  - destruct l as [|c l]; [reflexivity|]. exfalso. assert (X : In (c, S (count_occ kind_eq_dec l c)) []).
    { apply H. split; [lia|]. apply count_occ_cons_eq. reflexivity. } exact X.
  - change (n + list_sum (map snd m) = length l). inversion Hnd as [|? ? Hn Hd]; subst.
    rewrite (IH (remove kind_eq_dec c l)).
    + assert (Hc : count_occ kind_eq_dec l c = n) by (apply H; left; reflexivity). rewrite <- Hc. clear.
      induction l as [|a l IHl]; [reflexivity|]. cbn [remove count_occ length].
      destruct (kind_eq_dec a c) as [->|Hne]; destruct (kind_eq_dec c c) as [_|?]; try congruence; [lia|].
      destruct (kind_eq_dec c a); [congruence|]. cbn [length]. lia.
    + split; [exact Hd|]. intros x k. destruct (kind_eq_dec x c) as [->|Hx].
      * split; [intros Hi; exfalso; apply Hn; apply (in_map fst m (c, k)); exact Hi|]. intros [Hk E]. exfalso.
        assert (Z : ~ In c (remove kind_eq_dec c l)) by apply remove_In. apply (count_occ_not_In kind_eq_dec) in Z. lia.
      * transitivity (In (x, k) ((c, n) :: m)); [split; [intros Hi; right; exact Hi|intros [E|Hi]; [congruence|exact Hi]]|]. rewrite H.
        assert (E : count_occ kind_eq_dec (remove kind_eq_dec c l) x = count_occ kind_eq_dec l x); [|rewrite E; reflexivity].
        clear -Hx. induction l as [|a l IHl]; [reflexivity|]. cbn [remove]. destruct (kind_eq_dec c a) as [->|Hca].
        -- rewrite IHl. symmetry. apply count_occ_cons_neq. congruence.
        -- cbn [count_occ]. destruct (kind_eq_dec a x); rewrite IHl; reflexivity.
Qed.
