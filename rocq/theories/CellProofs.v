(** Lemmas about [ModelCell]. *)
From Coq Require Import Reals Lra Psatz.
From Verif Require Import Base BaseProofs Num ModelEvent ModelCell SpecWeights SumProofs.
Set Implicit Arguments.

Section Generic.
Context (N : NumOps).
Implicit Types (ws : weights_state N).

Lemma weight_at_spec ws i (w : N) :
  weight_at ws i = Some w <-> exists v, nth_error ws i = Some (w :: v).
Proof.
  unfold weight_at, central. destruct (nth_error ws i) as [[|a t]|] eqn:E; cbn.
  - split; [discriminate|]. intros [v H]. congruence.
  - split; [intros H; injection H as <-; eauto|]. intros [v H]. congruence.
  - split; [discriminate|]. intros [v H]. congruence.
Qed.

Lemma cell_grow_spec ws nbrs (c c' : Cell N) :
  cell_grow ws nbrs c = Some c' ->
  exists k wts, k <= length nbrs /\
    Forall2 (fun i w => weight_at ws i = Some w) (map fst (firstn k nbrs)) wts /\
    members c' = members c ++ map fst (firstn k nbrs) /\
    weight_sum c' = fold_left nadd wts (weight_sum c) /\
    radius c' = last (map snd (firstn k nbrs)) (radius c) /\
    (forall j, 0 < j < k -> nleb n0 (fold_left nadd (firstn j wts) (weight_sum c)) = false) /\
    (k < length nbrs -> 0 < k /\ nleb n0 (weight_sum c') = true).
Proof.
  revert c. induction nbrs as [|[i d] rest IH]; intros c H; cbn in H.
  - injection H as <-. exists 0, []. cbn. repeat split; auto; try lia.
    + rewrite app_nil_r. reflexivity.
  - destruct (weight_at ws i) as [w|] eqn:Ew; [|discriminate].
    destruct (nleb n0 (nadd (weight_sum c) w)) eqn:E.
    + injection H as <-. exists 1, [w]. cbn. repeat split; auto; try lia.
    + apply IH in H. destruct H as (k & wts & H1 & H2 & H3 & H4 & H5 & H6 & H7).
      exists (S k), (w :: wts). cbn [length firstn map fold_left]. cbn in H3, H4, H5, H6.
      repeat split; try lia; auto.
      * rewrite H3. cbn. rewrite <- app_assoc. reflexivity.
      * rewrite H5. cbn [snd]. destruct (map snd (firstn k rest)) as [|y t] eqn:El; auto.
        cbn [last]. clear. revert y. induction t as [|z t IH]; intros y; auto. cbn [last] in *.
        apply IH.
      * intros j Hj. destruct j as [|j]; [lia|]. cbn [firstn fold_left].
        destruct j as [|j]; [cbn; exact E|]. apply H6. lia.
      * apply H7. lia.
Qed.

(** *** write_all / copy_all *)
Lemma write_all_spec ws is w ws' :
  write_all ws is w = Some ws' ->
  length ws' = length ws /\
  (forall i, In i is -> i < length ws) /\
  forall j, nth_error ws' j = if in_dec Nat.eq_dec j is then Some w else nth_error ws j.
Proof.
  revert ws. induction is as [|i t IH]; intros ws H; cbn in H.
  - injection H as <-. split; [auto|split; [intros i []|]].
    intros j. destruct (in_dec Nat.eq_dec j []) as [[]|]; auto.
  - destruct (set_nth i w ws) as [ws1|] eqn:E; [|discriminate].
    apply set_nth_spec in E. destruct E as (E1 & E2 & E3).
    apply IH in H. destruct H as (H1 & H2 & H3). repeat split.
    + congruence.
    + intros j [<-|Hj]; auto. rewrite <- E2. auto.
    + intros j. rewrite H3. rewrite E3. destruct (in_dec Nat.eq_dec j t) as [Hi|Hi];
      destruct (in_dec Nat.eq_dec j (i :: t)) as [Hi'|Hi']; cbn in *; auto; try tauto.
      * destruct (Nat.eqb_spec j i); auto. destruct Hi'; congruence.
      * destruct (Nat.eqb_spec j i); auto. subst. tauto.
Qed.

Lemma write_all_some ws is w :
  (forall i, In i is -> i < length ws) -> exists ws', write_all ws is w = Some ws'.
Proof.
  revert ws. induction is as [|i t IH]; intros ws H; cbn; eauto.
  destruct (set_nth_some w ws (H i (or_introl eq_refl))) as [ws1 E]. rewrite E.
  apply IH. intros j Hj. apply set_nth_spec in E. destruct E as (_ & -> & _). apply H. right; auto.
Qed.

Lemma copy_all_write ws is avg ws' :
  copy_all ws is avg = Some ws' -> write_all ws is avg = Some ws'.
Proof.
  revert ws. induction is as [|i t IH]; intros ws H; cbn in *; auto.
  unfold get_weights in H. destruct (nth_error ws i) as [old|] eqn:E; [|discriminate].
  unfold weights_copy_from in H. destruct (Nat.eqb (length old) (length avg)) eqn:El; [|discriminate].
  destruct (set_nth i avg ws); [|discriminate]. auto.
Qed.

Lemma copy_all_some ws is avg :
  (forall i, In i is -> exists w, nth_error ws i = Some w /\ length w = length avg) ->
  exists ws', copy_all ws is avg = Some ws'.
Proof.
  revert ws. induction is as [|i t IH]; intros ws H; cbn; eauto.
  destruct (H i (or_introl eq_refl)) as (w & Hw & Hl).
  unfold get_weights. rewrite Hw. unfold weights_copy_from. rewrite Hl, Nat.eqb_refl.
  destruct (set_nth_some avg ws (i := i)) as [ws1 E].
  { apply nth_error_Some. congruence. }
  rewrite E. apply IH. intros j Hj.
  apply set_nth_spec in E. destruct E as (_ & _ & E). rewrite E.
  destruct (Nat.eqb_spec j i); eauto. apply H. right; auto.
Qed.

Lemma weights_add_length (l r s : list N) : weights_add l r = Some s ->
  length l = length r /\ length s = length r.
Proof.
  revert r s. induction l as [|a t IH]; intros [|b r] s H; cbn in H; try discriminate.
  - injection H as <-. auto.
  - destruct (weights_add t r) as [s'|] eqn:E; [|discriminate]. injection H as <-.
    apply IH in E. cbn. lia.
Qed.

Lemma weights_add_some (l r : list N) : length l = length r -> exists s, weights_add l r = Some s.
Proof.
  revert r. induction l as [|a t IH]; intros [|b r] H; cbn in *; try lia; eauto.
  destruct (IH r ltac:(lia)) as [s ->]. eauto.
Qed.

Lemma weights_add_none (l r : list N) : length l <> length r -> weights_add l r = None.
Proof.
  revert r. induction l as [|a t IH]; intros [|b r] H; cbn in *; try lia; eauto.
  rewrite IH by lia. reflexivity.
Qed.

Lemma fold_add_length (ws : list (list N)) w0 s :
  ofold weights_add ws w0 = Some s ->
  length s = length w0 /\ Forall (fun w => length w = length w0) ws.
Proof.
  revert w0. induction ws as [|w t IH]; intros w0 H; cbn in H.
  - injection H as <-. auto.
  - destruct (weights_add w0 w) as [s1|] eqn:E; [|discriminate].
    apply weights_add_length in E. apply IH in H. destruct H as [H1 H2], E as [E1 E2].
    split; [lia|]. constructor; [lia|]. eapply Forall_impl; [|exact H2]. cbn. intros; lia.
Qed.

Lemma fold_add_some (ws : list (list N)) w0 :
  Forall (fun w => length w = length w0) ws -> exists s, ofold weights_add ws w0 = Some s.
Proof.
  intros H. revert w0 H. induction ws as [|w t IH]; intros w0 H; cbn; eauto.
  inversion H as [|? ? Hw Ht]; subst.
  destruct (weights_add_some w0 w ltac:(lia)) as [s Hs]. rewrite Hs. apply IH.
  apply weights_add_length in Hs. eapply Forall_impl; [|exact Ht]. cbn. intros; lia.
Qed.

Lemma nodupb_spec l : nodupb l = true <-> NoDup l.
Proof.
  induction l as [|a t IH]; cbn.
  - split; auto; constructor.
  - rewrite andb_true_iff, IH, negb_true_iff. split.
    + intros [H1 H2]. constructor; auto. intros Hin.
      assert (existsb (Nat.eqb a) t = true) by
        (apply existsb_exists; exists a; rewrite Nat.eqb_refl; auto). congruence.
    + intros H. inversion H as [|? ? H1 H2]; subst. split; auto.
      destruct (existsb (Nat.eqb a) t) eqn:E; auto.
      apply existsb_exists in E. destruct E as (x & Hx & Ex). apply Nat.eqb_eq in Ex. congruence.
Qed.

Lemma omap_get_nth ws is l :
  omap (get_weights ws) is = Some l <-> Forall2 (fun i w => nth_error ws i = Some w) is l.
Proof. apply omap_spec. Qed.

(** What a successful resampling does, in any arithmetic. *)
Lemma resample_frame mw ws (c : Cell N) ws' :
  cell_resample mw ws c = Some ws' ->
  NoDup (members c) /\ (forall i, In i (members c) -> i < length ws) /\
  length ws' = length ws /\
  exists avg, forall i,
    nth_error ws' i = if in_dec Nat.eq_dec i (members c) then Some avg else nth_error ws i.
Proof.
  set (ms := isort Nat.leb (members c)).
  assert (Hp : Permutation (members c) ms) by apply isort_perm.
  assert (Hin : forall i, In i (members c) <-> In i ms).
  { intros i. split; apply Permutation_in; auto using Permutation_sym. }
  unfold cell_resample. destruct mw.
  - unfold resample_multi. fold ms.
    destruct (nodupb ms) eqn:End; [|discriminate]. apply nodupb_spec in End.
    destruct ms as [|first rest] eqn:Ems; [discriminate|].
    destruct (get_weights ws first) as [w0|] eqn:E0; [|discriminate].
    destruct (omap (get_weights ws) rest) as [wrest|] eqn:E1; [|discriminate].
    destruct (ofold weights_add wrest w0) as [tot|] eqn:E2; [|discriminate].
    set (avg := map _ tot). destruct (copy_all ws rest avg) as [ws1|] eqn:E3; [|discriminate].
    intros E4. apply copy_all_write in E3.
    assert (E5 : write_all ws (rest ++ [first]) avg = Some ws').
    { clearbody avg. clear - E3 E4. revert ws E3. induction rest as [|i t IH]; intros ws E3; cbn in *.
      - injection E3 as ->. rewrite E4. reflexivity.
      - destruct (set_nth i avg ws); [|discriminate]. auto. }
    apply write_all_spec in E5. destruct E5 as (H1 & H2 & H3).
    assert (Hin' : forall i, In i (members c) <-> In i (rest ++ [first])).
    { intros i. rewrite Hin, in_app_iff. cbn. tauto. }
    split; [eapply Permutation_NoDup; [apply Permutation_sym; exact Hp|exact End]|].
    split; [intros i Hi; apply H2, Hin'; auto|]. split; auto.
    exists avg. intros i. rewrite H3.
    destruct (in_dec Nat.eq_dec i (rest ++ [first])), (in_dec Nat.eq_dec i (members c)); auto;
      exfalso; rewrite Hin' in *; tauto.
  - unfold resample_single. fold ms.
    destruct (nodupb ms) eqn:End; [|discriminate]. apply nodupb_spec in End.
    destruct (omap (weight_at ws) ms) as [wts|] eqn:E1; [|discriminate].
    intros E5. apply write_all_spec in E5. destruct E5 as (H1 & H2 & H3).
    split; [eapply Permutation_NoDup; [apply Permutation_sym; exact Hp|exact End]|].
    split; [intros i Hi; apply H2, Hin; auto|]. split; auto.
    eexists. intros i. rewrite H3.
    destruct (in_dec Nat.eq_dec i ms), (in_dec Nat.eq_dec i (members c)); auto;
      exfalso; rewrite Hin in *; tauto.
Qed.

Lemma resample_lengths mw ws (c : Cell N) ws' :
  wf_weights mw ws ->
  cell_resample mw ws c = Some ws' ->
  forall i w w', nth_error ws i = Some w -> nth_error ws' i = Some w' -> length w' = length w.
Proof.
  intros Hwf H. pose proof (resample_frame _ _ _ H) as (_ & Hlt & _ & avg & Hframe).
  intros i w w' Hw Hw'. rewrite Hframe in Hw'.
  destruct (in_dec Nat.eq_dec i (members c)) as [Hi|Hi]; [|congruence].
  injection Hw' as <-.
  set (ms := isort Nat.leb (members c)) in *.
  assert (Hp : Permutation (members c) ms) by apply isort_perm.
  assert (Hims : In i ms) by (eapply Permutation_in; eauto).
  unfold cell_resample in H. destruct mw.
  - unfold resample_multi in H. fold ms in H.
    destruct (nodupb ms) eqn:End; [|discriminate].
    destruct ms as [|first rest] eqn:Ems; [discriminate|].
    destruct (get_weights ws first) as [w0|] eqn:E0; [|discriminate].
    destruct (omap (get_weights ws) rest) as [wrest|] eqn:E1; [|discriminate].
    destruct (ofold weights_add wrest w0) as [tot|] eqn:E2; [|discriminate].
    set (avg' := map _ tot) in H. destruct (copy_all ws rest avg') as [ws1|] eqn:E3; [|discriminate].
    assert (avg = avg').
    { apply set_nth_spec in H. destruct H as (_ & _ & H). specialize (H first).
      rewrite Nat.eqb_refl in H. rewrite Hframe in H.
      destruct (in_dec Nat.eq_dec first (members c)) as [|Hn]; [congruence|].
      exfalso. apply Hn. eapply Permutation_in; [apply Permutation_sym; exact Hp|left; auto]. }
    subst avg. unfold avg'. rewrite map_length.
    apply fold_add_length in E2. destruct E2 as [E2 E2']. rewrite E2.
    destruct Hims as [<-|Hims].
    + unfold get_weights in E0. congruence.
    + rewrite omap_get_nth in E1. clear - E1 E2' Hims Hw. revert wrest E1 E2'.
      induction rest as [|j t IH]; intros wrest E1 E2'; [destruct Hims|].
      inversion E1; subst. inversion E2'; subst. destruct Hims as [<-|Hims].
      * congruence.
      * eapply IH; eauto.
  - unfold resample_single in H. fold ms in H.
    destruct (nodupb ms) eqn:End; [|discriminate].
    destruct (omap (weight_at ws) ms) as [wts|] eqn:E1; [|discriminate].
    apply write_all_spec in H. destruct H as (_ & _ & H). specialize (H i).
    rewrite Hframe in H.
    destruct (in_dec Nat.eq_dec i (members c)); [|tauto].
    destruct (in_dec Nat.eq_dec i ms); [|tauto]. injection H as ->. cbn.
    symmetry. specialize (Hwf eq_refl). unfold uniform in Hwf. rewrite Forall_forall in Hwf. apply Hwf.
    eapply nth_error_In; eauto.
Qed.

(** Success and failure. *)
Lemma resample_some_multi ws (c : Cell N) n :
  NoDup (members c) -> members c <> [] ->
  (forall i, In i (members c) -> exists w, nth_error ws i = Some w /\ length w = n) ->
  exists ws', cell_resample true ws c = Some ws'.
Proof.
  intros Hnd Hne Hall. unfold cell_resample, resample_multi.
  set (ms := isort Nat.leb (members c)).
  assert (Hp : Permutation (members c) ms) by apply isort_perm.
  assert (Hms : NoDup ms) by (eapply Permutation_NoDup; eauto).
  rewrite (proj2 (nodupb_spec ms) Hms).
  assert (Hall' : forall i, In i ms -> exists w, nth_error ws i = Some w /\ length w = n).
  { intros i Hi. apply Hall. eapply Permutation_in; [apply Permutation_sym; exact Hp|auto]. }
  destruct ms as [|first rest] eqn:Ems.
  { apply Permutation_sym, Permutation_nil in Hp. congruence. }
  destruct (Hall' first (or_introl eq_refl)) as (w0 & H0 & Hl0).
  unfold get_weights at 1. rewrite H0.
  assert (exists wrest, omap (get_weights ws) rest = Some wrest /\ Forall (fun w => length w = n) wrest)
    as (wrest & E1 & Hl).
  { assert (Hr : forall i, In i rest -> exists w, nth_error ws i = Some w /\ length w = n)
      by (intros i Hi; apply Hall'; right; auto).
    clear - Hr. induction rest as [|i t IH]; cbn; [eauto|].
    destruct (Hr i (or_introl eq_refl)) as (w & Hw & Hl).
    unfold get_weights at 1. rewrite Hw.
    destruct IH as (l & -> & Hl'); [intros j Hj; apply Hr; right; auto|]. eauto. }
  rewrite E1. destruct (@fold_add_some wrest w0) as [tot E2].
  { eapply Forall_impl; [|exact Hl]. cbn; intros; lia. }
  rewrite E2. apply fold_add_length in E2. destruct E2 as [E2 _].
  set (avg := map _ tot). assert (Hla : length avg = n) by (unfold avg; rewrite map_length; lia).
  destruct (copy_all_some ws rest avg) as [ws1 E3].
  { intros i Hi. destruct (Hall' i (or_intror Hi)) as (w & Hw & Hlw). exists w. split; auto. lia. }
  rewrite E3. apply copy_all_write, write_all_spec in E3. destruct E3 as (E3 & _).
  apply set_nth_some. rewrite E3. apply nth_error_Some. congruence.
Qed.

Lemma resample_none_multi ws (c : Cell N) i j wi wj :
  In i (members c) -> In j (members c) ->
  nth_error ws i = Some wi -> nth_error ws j = Some wj -> length wi <> length wj ->
  cell_resample true ws c = None.
Proof.
  intros Hi Hj Hwi Hwj Hne. destruct (cell_resample true ws c) as [ws'|] eqn:E; auto.
  exfalso. apply Hne.
  pose proof (resample_frame _ _ _ E) as (_ & Hlt & Hlen & avg & Hframe).
  assert (Hwf : wf_weights true ws) by (intros H; discriminate).
  pose proof (resample_lengths _ Hwf E) as Hl.
  rewrite <- (Hl i wi avg Hwi). 2:{ rewrite Hframe. destruct in_dec; tauto. }
  rewrite <- (Hl j wj avg Hwj). 2:{ rewrite Hframe. destruct in_dec; tauto. }
  reflexivity.
Qed.

Lemma resample_some_single ws (c : Cell N) :
  NoDup (members c) ->
  (forall i, In i (members c) -> exists w, nth_error ws i = Some [w]) ->
  exists ws', cell_resample false ws c = Some ws'.
Proof.
  intros Hnd Hall. unfold cell_resample, resample_single.
  set (ms := isort Nat.leb (members c)).
  assert (Hp : Permutation (members c) ms) by apply isort_perm.
  assert (Hms : NoDup ms) by (eapply Permutation_NoDup; eauto).
  rewrite (proj2 (nodupb_spec ms) Hms).
  assert (Hall' : forall i, In i ms -> exists w, nth_error ws i = Some [w]).
  { intros i Hi. apply Hall. eapply Permutation_in; [apply Permutation_sym; exact Hp|auto]. }
  assert (exists l, omap (weight_at ws) ms = Some l) as [l ->].
  { clear - Hall'. induction ms as [|i t IH]; cbn; eauto.
    destruct (Hall' i (or_introl eq_refl)) as [w Hw]. unfold weight_at at 1. rewrite Hw. cbn.
    destruct IH as [l ->]; [intros j Hj; apply Hall'; right; auto|]. eauto. }
  apply write_all_some. intros i Hi. destruct (Hall' i Hi) as [w Hw].
  apply nth_error_Some. congruence.
Qed.

End Generic.

(** *** Exact arithmetic *)
Local Open Scope R_scope.

(** The carrier of [RN] is [R]: make that syntactic. *)
Ltac rn := unfold weights_state in *; change (num RN) with R in *.

Lemma weights_add_RN (l r s : list R) k :
  @weights_add RN l r = Some s -> nth k s 0 = nth k l 0 + nth k r 0.
Proof.
  revert r s k. induction l as [|a t IH]; intros [|b r] s k H; cbn in H; try discriminate.
  - injection H as <-. destruct k; cbn; lra.
  - destruct (@weights_add RN t r) as [s'|] eqn:E; [|discriminate]. injection H as <-.
    destruct k as [|k]; cbn; [reflexivity|]. apply IH. exact E.
Qed.

Lemma fold_add_RN (ws : list (list R)) w0 s k :
  ofold (@weights_add RN) ws w0 = Some s ->
  nth k s 0 = nth k w0 0 + Rsum (map (fun w => nth k w 0) ws).
Proof.
  revert w0. induction ws as [|w t IH]; intros w0 H; cbn in H.
  - injection H as <-. cbn. rewrite Rsum_nil. lra.
  - destruct (@weights_add RN w0 w) as [s1|] eqn:E; [|discriminate].
    apply IH in H. pose proof (weights_add_RN _ _ k E) as E'. cbn in *.
    rewrite Rsum_cons. lra.
Qed.

Lemma nth_map_scale (l : list R) c k : nth k (map (fun w => w * c) l) 0 = nth k l 0 * c.
Proof.
  rewrite <- (map_nth (fun w => w * c) l 0 k). f_equal. lra.
Qed.

Lemma Forall2_map_comp (ws : sample) is (l : list (list R)) k :
  Forall2 (fun i w => nth_error ws i = Some w) is l ->
  map (fun w => nth k w 0) l = map (fun i => comp ws i k) is.
Proof.
  induction 1 as [|i w is l H _ IH]; cbn; auto. f_equal; auto.
  unfold comp. f_equal. symmetry. apply nth_error_nth. exact H.
Qed.

Lemma comp_nth (ws : sample) i w k : nth_error ws i = Some w -> comp ws i k = nth k w 0.
Proof. intros H. unfold comp. f_equal. apply nth_error_nth. exact H. Qed.

Lemma resample_mean mw (ws : weights_state RN) (c : Cell RN) ws' :
  wf_weights mw ws ->
  cell_resample mw ws c = Some ws' ->
  forall i k, In i (members c) ->
    comp ws' i k = mean (map (fun j => comp ws j k) (members c)).
Proof.
  intros Hwf H i k Hi.
  pose proof (resample_frame _ _ _ H) as (Hnd & Hlt & Hlen & avg & Hframe).
  assert (Hci : comp ws' i k = nth k avg 0).
  { apply comp_nth. rewrite Hframe. destruct in_dec; tauto. }
  rewrite Hci.
  set (ms := isort Nat.leb (members c)) in *.
  assert (Hp : Permutation (members c) ms) by apply isort_perm.
  unfold mean. rewrite map_length. rewrite (Permutation_length Hp).
  rewrite (Rsum_perm (Permutation_map _ Hp)).
  unfold cell_resample in H. destruct mw.
  - unfold resample_multi in H. fold ms in H.
    destruct (nodupb ms) eqn:End; [|discriminate].
    destruct ms as [|first rest] eqn:Ems; [discriminate|].
    destruct (get_weights ws first) as [w0|] eqn:E0; [|discriminate].
    destruct (omap (get_weights ws) rest) as [wrest|] eqn:E1; [|discriminate].
    destruct (ofold weights_add wrest w0) as [tot|] eqn:E2; [|discriminate].
    set (avg' := map _ tot) in H. destruct (copy_all ws rest avg') as [ws1|] eqn:E3; [|discriminate].
    assert (avg = avg').
    { apply set_nth_spec in H. destruct H as (_ & _ & H). specialize (H first).
      rewrite Nat.eqb_refl in H. rewrite Hframe in H.
      destruct (in_dec Nat.eq_dec first (members c)) as [|Hn]; [congruence|].
      exfalso. apply Hn. eapply Permutation_in; [apply Permutation_sym; exact Hp|left; auto]. }
    subst avg. unfold avg'.
    transitivity (@nth R k tot 0 * (1 / INR (length (first :: rest)))).
    { exact (nth_map_scale tot _ k). }
    pose proof (fold_add_RN _ _ k E2) as Ht. cbn in Ht.
    rewrite omap_get_nth in E1. pose proof (@Forall2_map_comp ws rest wrest k E1) as Hr. cbn in Hr.
    rewrite Hr in Ht. unfold get_weights in E0. pose proof (@comp_nth ws first w0 k E0) as H0.
    cbn in H0. rewrite <- H0 in Ht. cbn in Ht |- *. rewrite Ht, Rsum_cons.
    unfold Rdiv. rewrite Rmult_1_l. reflexivity.
  - unfold resample_single in H. fold ms in H.
    destruct (nodupb ms) eqn:End; [|discriminate].
    destruct (omap (weight_at ws) ms) as [wts|] eqn:E1; [|discriminate].
    apply write_all_spec in H. destruct H as (_ & _ & H). specialize (H i).
    rewrite Hframe in H.
    destruct (in_dec Nat.eq_dec i (members c)); [|tauto].
    assert (Hims : In i ms) by (eapply Permutation_in; eauto).
    destruct (in_dec Nat.eq_dec i ms); [|tauto]. injection H as ->.
    specialize (Hwf eq_refl). unfold uniform in Hwf. rewrite Forall_forall in Hwf.
    rewrite nsum_RN. cbn [ndiv nofnat RN num].
    rewrite omap_spec in E1.
    assert (Hlen1 : forall j w, nth_error ws j = Some w -> length w = 1%nat).
    { intros j w Hw. apply Hwf. eapply nth_error_In; eauto. }
    destruct k as [|k]; cbn [nth].
    + f_equal. f_equal. clear - E1 Hlen1. induction E1 as [|j w js l Hj _ IH]; cbn; auto.
      f_equal; auto. apply weight_at_spec in Hj. destruct Hj as [v Hj].
      rewrite (@comp_nth ws j (w :: v) 0 Hj). reflexivity.
    + replace (match k with 0%nat => 0 | S _ => 0 end) with 0 by (destruct k; auto).
      symmetry. apply Rmult_eq_0_compat_r.
      rewrite (@Rsum_map_ext _ _ (fun _ => 0)). { rewrite Rsum_map_const. lra. }
      intros j Hj. destruct (nth_error ws j) as [w|] eqn:Ew.
      * rewrite (@comp_nth ws j w (S k) Ew). specialize (Hlen1 _ _ Ew).
        destruct w as [|a [|b w]]; cbn in Hlen1; try lia. destruct k; reflexivity.
      * apply nth_error_None in Ew. unfold comp. rewrite (nth_overflow ws) by exact Ew.
        reflexivity.
Qed.

Lemma total_index (s : sample) k : total s k = Rsum (map (fun i => comp s i k) (seq 0 (length s))).
Proof. exact (Rsum_by_index [] (fun w => nth k w 0) s). Qed.

Lemma comp_out mw (ws : weights_state RN) (c : Cell RN) ws' i k :
  cell_resample mw ws c = Some ws' -> ~ In i (members c) -> comp ws' i k = comp ws i k.
Proof.
  intros H Hi. pose proof (resample_frame _ _ _ H) as (Hnd & Hlt & Hlen & avg & Hframe).
  specialize (Hframe i). destruct in_dec; [tauto|].
  destruct (nth_error ws i) eqn:E.
  - rewrite (@comp_nth ws' i _ k Hframe), (@comp_nth ws i _ k E). reflexivity.
  - apply nth_error_None in Hframe, E. unfold comp.
    rewrite (nth_overflow ws) by exact E. rewrite (nth_overflow ws') by exact Hframe.
    reflexivity.
Qed.

Lemma resample_members_nonempty mw (ws : weights_state RN) (c : Cell RN) ws' :
  cell_resample mw ws c = Some ws' -> mw = true -> members c <> [].
Proof.
  intros H -> E. unfold cell_resample, resample_multi in H. rewrite E in H. discriminate.
Qed.

Lemma mean_times l : l <> [] -> INR (length l) * mean l = Rsum l.
Proof.
  intros H. unfold mean. field. apply not_0_INR. destruct l; cbn; [congruence|lia].
Qed.

Lemma resample_total mw (ws : weights_state RN) (c : Cell RN) ws' :
  wf_weights mw ws ->
  cell_resample mw ws c = Some ws' -> forall k, total ws' k = total ws k.
Proof.
  intros Hwf H k.
  pose proof (resample_frame _ _ _ H) as (Hnd & Hlt & Hlen & avg & Hframe).
  rn. rewrite !total_index. rewrite Hlen.
  pose proof (@Rsum_change (length ws) (members c) (fun i => comp ws' i k) (fun i => comp ws i k)
    Hnd Hlt (fun i Hi => @comp_out mw ws c ws' i k H Hi)) as Hc.
  destruct (members c) as [|m0 ms] eqn:Em.
  { cbn in Hc. lra. }
  rewrite <- Em in *.
  rewrite (@Rsum_map_ext _ (fun i => comp ws' i k) (fun _ => mean (map (fun j => comp ws j k) (members c)))
     (members c)) in Hc.
  2:{ intros i Hi. eapply resample_mean; eauto. }
  rewrite Rsum_map_const in Hc.
  rewrite <- (map_length (fun j => comp ws j k) (members c)) in Hc.
  rewrite mean_times in Hc. 2:{ rewrite Em. discriminate. }
  lra.
Qed.
