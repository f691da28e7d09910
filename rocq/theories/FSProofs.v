(** Disks and buffered writers. *)
From Verif Require Import Base Num ModelEvent ModelText ModelHepMC ModelLHEF ModelStripper ModelIO ModelMain ModelFS SpecFS.

Lemma firstn_plus A (l : list A) : forall a b, firstn (a + b) l = firstn a l ++ firstn b (skipn a l).
Proof. induction l as [|x l IH]; intros [|a] b; cbn; try reflexivity. - destruct b; reflexivity. - f_equal. apply IH. Qed.
Lemma skipn_plus A (l : list A) : forall a b, skipn (a + b) l = skipn b (skipn a l).
Proof. induction l as [|x l IH]; intros [|a] b; cbn; try reflexivity. - destruct b; reflexivity. - apply IH. Qed.
Lemma skipn_firstn_minus A (l : list A) : forall a b, skipn a (firstn b l) = firstn (b - a) (skipn a l).
Proof.
  induction l as [|x l IH]; intros [|a] [|b]; cbn; try reflexivity; try (destruct (b - a); reflexivity); apply IH.
Qed.

Lemma write_at_firstn (o bytes : text) off L : off <= L -> L <= length o -> bytes = firstn (length bytes) (skipn off o) ->
  write_at off bytes (firstn L o) = firstn (max L (off + length bytes)) o.
Proof.
  intros H1 H2 Hb. unfold write_at. assert (HL : length (firstn L o) = L) by (rewrite firstn_length; unfold text in *; lia).
  rewrite HL. replace (off - L) with 0 by lia. cbn [repeat]. rewrite app_nil_r, firstn_firstn, Nat.min_l by lia.
  replace (max L (off + length bytes)) with (off + (length bytes + (L - (off + length bytes)))) by lia.
  rewrite !firstn_plus, skipn_firstn_minus, skipn_plus. f_equal. f_equal. exact Hb.
Qed.

Section Log.
Context (start : disk) (faults : nat -> option nat).
Notation nofault := (no_failure faults).

Lemma nofault_app log log' : nofault (log ++ log') -> nofault log.
Proof. intros H n Hn. apply H. rewrite app_length. lia. Qed.
Lemma replay_snoc log c : replay start (log ++ [c]) = perform (replay start log) c.
Proof. unfold replay. rewrite fold_left_app. reflexivity. Qed.

(** Logs only grow, by calls for one file. *)
Definition touches (p : path) (c : syscall) : Prop := match c with Create q | Write q _ _ => q = p | Refused => True end.
Definition grows (ps : list path) (log log' : list syscall) : Prop :=
  exists l, log' = log ++ l /\ Forall (fun c => exists p, In p ps /\ touches p c) l.
Lemma grows_refl ps log : grows ps log log.
Proof. exists []. rewrite app_nil_r. auto. Qed.
Lemma grows_trans ps a b c : grows ps a b -> grows ps b c -> grows ps a c.
Proof. intros (l & -> & H) (m & -> & H'). exists (l ++ m). rewrite app_assoc, Forall_app. auto. Qed.
Lemma grows_incl ps qs a b : incl ps qs -> grows ps a b -> grows qs a b.
Proof. intros Hi (l & -> & H). exists l. split; [reflexivity|]. eapply Forall_impl; [|exact H]. intros c (p & Hp & Hc). eauto. Qed.
Lemma grows_one p log c : touches p c -> grows [p] log (log ++ [c]).
Proof. intros H. exists [c]. split; [reflexivity|]. constructor; [|constructor]. exists p. split; [left; reflexivity|exact H]. Qed.
Lemma grows_nofault ps a b : grows ps a b -> nofault b -> nofault a.
Proof. intros (l & -> & _). apply nofault_app. Qed.
Lemma perform_other d p q c : touches p c -> q <> p -> perform d c q = d q.
Proof.
  intros Hc Hq. assert (E : (q =? p) = false) by (apply Nat.eqb_neq; exact Hq).
  destruct c as [r|r off b|]; cbn in *; subst; [unfold set_file; rewrite E|destruct (d p); [unfold set_file; rewrite E|]|]; reflexivity.
Qed.
Lemma grows_other ps a b q : grows ps a b -> ~ In q ps -> replay start b q = replay start a q.
Proof.
  intros (l & -> & H) Hq. revert a. induction H as [|c l (p & Hp & Hc) _ IH]; intros a; [rewrite app_nil_r; reflexivity|].
  replace (a ++ c :: l) with ((a ++ [c]) ++ l) by (rewrite <- app_assoc; reflexivity). rewrite IH, replay_snoc.
  apply (perform_other _ p); [exact Hc|]. intros ->. apply Hq, Hp.
Qed.
Lemma grows_firstn ps l k : grows ps [] l -> grows ps [] (firstn k l).
Proof.
  intros (m & -> & H). cbn. exists (firstn k m). split; [reflexivity|]. rewrite <- (firstn_skipn k m) in H. apply Forall_app in H. apply H.
Qed.

(** *** System calls *)
Lemma do_create_spec p log : let '(ok, log') := do_create faults p log in
  grows [p] log log' /\
  ((ok = true /\ replay start log' p = Some [] /\ log' = log ++ [Create p]) \/ (ok = false /\ log' = log ++ [Refused] /\ ~ nofault log')).
Proof.
  unfold do_create. destruct (faults (length log)) as [k|] eqn:E.
  - split; [apply grows_one; exact I|]. right. repeat split. intros H. rewrite H in E; [discriminate|]. rewrite app_length. cbn. lia.
  - split; [apply grows_one; reflexivity|]. left. repeat split. rewrite replay_snoc. cbn. unfold set_file. rewrite Nat.eqb_refl. reflexivity.
Qed.

(** *** The contents of a file with the final contents [o] *)
Definition has (o : text) (L : nat) (log : list syscall) (p : path) : Prop := L <= length o /\ replay start log p = Some (firstn L o).
Lemma has_grows o L ps a b p : grows ps a b -> ~ In p ps -> has o L a p -> has o L b p.
Proof. intros H Hp [H1 H2]. split; [exact H1|]. rewrite (grows_other _ _ _ _ H Hp). exact H2. Qed.

Lemma do_write_spec p off (bytes : text) log (o : text) L : has o L log p -> off <= L -> bytes = firstn (length bytes) (skipn off o) -> off + length bytes <= length o ->
  let '(ok, n, log') := do_write faults p off bytes log in
  grows [p] log log' /\ n <= length bytes /\ has o (max L (off + n)) log' p /\
  (ok = true -> n = length bytes) /\ (ok = false -> ~ nofault log') /\ exists c, log' = log ++ [c].
Proof.
  intros [HL Hc] Ho Hb Hlen. unfold do_write.
  assert (W : forall n, n <= length bytes -> has o (max L (off + n)) (log ++ [Write p off (firstn n bytes)]) p).
  { intros n Hn. split; [lia|]. rewrite replay_snoc. cbn [perform]. rewrite Hc. unfold set_file. rewrite Nat.eqb_refl. f_equal.
    assert (Hfn : length (firstn n bytes) = n) by (rewrite firstn_length; unfold text in *; lia).
    pose proof (write_at_firstn o (firstn n bytes) off L Ho HL) as H. rewrite Hfn in H. apply H.
    rewrite Hb, firstn_firstn. f_equal. unfold text in *; lia. }
  destruct (faults (length log)) as [k|] eqn:E.
  - assert (Hn : length (firstn k bytes) <= length bytes) by (rewrite firstn_length; unfold text in *; lia).
    split; [apply grows_one; reflexivity|]. split; [exact Hn|]. split.
    + specialize (W _ Hn). assert (E' : firstn (length (firstn k bytes)) bytes = firstn k bytes).
      { rewrite firstn_length. destruct (Nat.le_gt_cases k (length bytes)).
        - rewrite Nat.min_l by (unfold text in *; lia). reflexivity.
        - rewrite Nat.min_r by (unfold text in *; lia). rewrite firstn_all, firstn_all2 by (unfold text in *; lia). reflexivity. }
      rewrite E' in W. exact W.
    + split; [discriminate|]. split; [|eauto]. intros _ H. rewrite H in E; [discriminate|]. rewrite app_length. cbn. lia.
  - split; [apply grows_one; reflexivity|]. split; [lia|]. split; [|split; [reflexivity|split; [discriminate|eauto]]].
    specialize (W (length bytes) (le_n _)). rewrite firstn_all in W. exact W.
Qed.
End Log.
