(** Runs with several threads depend on the order of the neighbours only. *)
From Coq Require Import NArith ZArith Reals Lra Lia SpecFloat Sorted.
From Flocq Require Import Core.Core IEEE754.BinarySingleNaN.
From Verif Require Import Base BaseProofs Num ModelEvent ModelDistance ModelCell ModelSeeds ModelNaive ModelVPTree ModelResampler ModelConc ModelThreads
  SpecDistance SpecSearch SpecTree SpecTreeNear SpecEvent SpecMoments SpecAccuracy SpecSeparated
  B64Proofs B64Errors B64Finite B64Distance EventProofs NaiveProofs DistAccuracy5 SeparatedProofs SeparatedProofs2 PropsTreeNear PropsAccuracy PropsSeparated.
From Coq Require Import List.
Import ListNotations.

Section Sim.
Context {N : NumOps} (mw : bool) (near near' : search N) (n : nat).
Hypothesis Hids : forall q, q < n -> same_ids N (near q) (near' q).

Definition same_thread (t t' : tstate N) : Prop :=
  match t, t' with
  | TGrow c l, TGrow c' l' => same_cell c c' /\ map fst l = map fst l'
  | _, _ => t = t'
  end.
Definition same_state (s s' : cstate N) : Prop :=
  mem s = mem s' /\ pool s = pool s' /\ Forall2 same_thread (threads s) (threads s') /\ length (mem s) = n.

Lemma same_thread_refl t : same_thread t t.
Proof. destruct t; cbn; auto. repeat split. Qed.
Lemma same_held t t' : same_thread t t' -> held_of t = held_of t'.
Proof. destruct t, t'; cbn; intros H; try discriminate H; try (inversion H; subst; reflexivity); reflexivity. Qed.
Lemma same_locked s s' i : same_state s s' -> is_locked s i = is_locked s' i.
Proof.
  intros (_ & _ & F & _). unfold is_locked. induction F as [|t t' l l' H F IH]; [reflexivity|]. cbn [existsb]. rewrite (same_held _ _ H), IH. reflexivity.
Qed.
Lemma same_read s s' i : same_state s s' -> read_weight s i = read_weight s' i.
Proof. intros H. unfold read_weight. rewrite (same_locked _ _ i H). destruct H as [-> _]. reflexivity. Qed.
Lemma set_nth_length A (l l' : list A) : forall i a, set_nth i a l = Some l' -> length l' = length l.
Proof.
  revert l'. induction l as [|b l IH]; intros l' [|i] a H; cbn in H; try discriminate.
  - injection H as <-. reflexivity.
  - destruct (set_nth i a l) as [r|] eqn:E; [|discriminate]. injection H as <-. cbn. f_equal. eapply IH. exact E.
Qed.
Lemma write_length (ws : weights_state N) i avg ws' : write_weights mw ws i avg = Some ws' -> length ws' = length ws.
Proof.
  unfold write_weights. destruct mw; [|apply set_nth_length]. destruct (get_weights ws i) as [old|]; [|discriminate].
  destruct (weights_copy_from old avg) as [w|]; [|discriminate]. apply set_nth_length.
Qed.
Lemma set_nth_same l l' : Forall2 same_thread l l' -> forall i t t', same_thread t t' ->
  match set_nth i t l, set_nth i t' l' with Some a, Some b => Forall2 same_thread a b | None, None => True | _, _ => False end.
Proof.
  induction 1 as [|x x' l l' H F IH]; intros [|i] t t' Ht; cbn; auto. specialize (IH i t t' Ht).
  destruct (set_nth i t l), (set_nth i t' l'); auto.
Qed.
Lemma nth_same l l' i : Forall2 same_thread l l' ->
  match nth_error l i, nth_error l' i with Some t, Some t' => same_thread t t' | None, None => True | _, _ => False end.
Proof. intros F. revert i. induction F as [|x x' l l' H F IH]; intros [|i]; cbn; auto. apply IH. Qed.

Definition same_opt (o o' : option (cstate N)) : Prop := match o, o' with Some s, Some s' => same_state s s' | None, None => True | _, _ => False end.

Lemma same_go s s' t m p ts ts' : same_state s s' -> length m = n -> same_thread ts ts' ->
  same_opt (match set_nth t ts (threads s) with None => None | Some l => Some (mkConc m p l) end)
           (match set_nth t ts' (threads s') with None => None | Some l => Some (mkConc m p l) end).
Proof.
  intros (_ & _ & F & _) Hm Ht. pose proof (set_nth_same _ _ F t ts ts' Ht) as H.
  destruct (set_nth t ts (threads s)), (set_nth t ts' (threads s')); cbn; auto. repeat split; auto.
Qed.

Lemma same_step s s' t k : same_state s s' -> same_opt (thread_step mw near s t k) (thread_step mw near' s' t k).
Proof.
  intros H. destruct H as (Hm & Hp & HF & Hl). assert (H : same_state s s') by (repeat split; assumption).
  unfold thread_step. pose proof (nth_same _ _ t HF) as Ht. rewrite <- Hm, <- Hp.
  destruct (nth_error (threads s) t) as [a|], (nth_error (threads s') t) as [b|]; try contradiction; [|exact I].
  destruct a as [|seed|seed|c l|held todo|avg tw held]; destruct b as [|seed'|seed'|c' l'|held' todo'|avg' tw' held']; cbn [same_thread] in Ht; try discriminate Ht.
  - destruct (nth_error (pool s) k) as [seed|]; [|exact I]. destruct (length (mem s) <=? seed); [exact I|]. apply same_go; [exact H|exact Hl|apply same_thread_refl].
  - injection Ht as <-. rewrite (same_read _ _ seed H). destruct (read_weight s' seed) as [w|]; [|exact I]. apply same_go; [exact H|exact Hl|apply same_thread_refl].
  - injection Ht as <-. rewrite <- (same_read _ _ seed H). destruct (read_weight s seed) as [w|] eqn:Ew; [|exact I].
    assert (Hs : seed < n).
    { unfold read_weight in Ew. destruct (is_locked s seed); [discriminate|]. unfold weight_at in Ew. rewrite <- Hl. apply nth_error_Some. destruct (nth_error (mem s) seed); [discriminate|discriminate Ew]. }
    pose proof (Hids seed Hs) as Hi. unfold same_ids in Hi. destruct (near seed) as [l|], (near' seed) as [l'|]; cbn [option_map] in Hi; try discriminate; [|exact I].
    injection Hi as Hi. apply same_go; [exact H|exact Hl|]. cbn. repeat split. exact Hi.
  - destruct Ht as [[Hc Hw] Hn]. destruct l as [|[i d] l], l' as [|[i' d'] l']; cbn [map fst] in Hn; try discriminate.
    + rewrite Hc. apply same_go; [exact H|exact Hl|apply same_thread_refl].
    + injection Hn as <- Hn. rewrite (same_read _ _ i H). destruct (read_weight s' i) as [w|]; [|exact I]. cbn zeta. cbn [members]. rewrite Hc, Hw.
      apply same_go; [exact H|exact Hl|]. destruct (nleb n0 (nadd (weight_sum c') w)); [apply same_thread_refl|]. cbn. repeat split. exact Hn.
  - injection Ht as <- <-. destruct todo as [|i todo].
    + destruct (cell_average mw (mem s) held) as [avg|]; [|exact I]. apply same_go; [exact H|exact Hl|apply same_thread_refl].
    + rewrite (same_locked _ _ i H). destruct (is_locked s' i); [exact I|]. apply same_go; [exact H|exact Hl|apply same_thread_refl].
  - injection Ht as <- <- <-. destruct tw as [|i tw].
    + destruct held as [|j held]; (apply same_go; [exact H|exact Hl|apply same_thread_refl]).
    + destruct (write_weights mw (mem s) i avg) as [m|] eqn:Em; [|exact I]. apply same_go; [exact H|rewrite (write_length _ _ _ _ Em); exact Hl|apply same_thread_refl].
Qed.

Lemma same_first s s' l : same_state s s' -> same_opt (first_step mw near s l) (first_step mw near' s' l).
Proof.
  intros H. induction l as [|[t k] l IH]; [exact I|]. cbn [first_step]. pose proof (same_step s s' t k H) as Hs.
  destruct (thread_step mw near s t k), (thread_step mw near' s' t k); cbn in Hs; try contradiction; auto.
Qed.

Lemma same_run sched fuel : forall k s s', same_state s s' -> same_state (threads_run mw near sched fuel k s) (threads_run mw near' sched fuel k s').
Proof.
  induction fuel as [|fuel IH]; intros k s s' H; [exact H|]. cbn [threads_run]. unfold sched_step.
  assert (E : all_steps s = all_steps s').
  { destruct H as (_ & Hp & F & _). unfold all_steps. rewrite Hp. f_equal. f_equal. clear -F. induction F; cbn; congruence. }
  rewrite <- E. pose proof (same_first s s' (sched k :: all_steps s) H) as Hs.
  destruct (first_step mw near s (sched k :: all_steps s)), (first_step mw near' s' (sched k :: all_steps s)); cbn in Hs; try contradiction; auto.
Qed.

Lemma same_finished s s' : same_state s s' -> finished s = finished s'.
Proof.
  intros (_ & Hp & F & _). unfold finished. rewrite Hp. destruct (pool s'); [|reflexivity].
  induction F as [|t t' l l' H F IH]; [reflexivity|]. cbn [forallb]. rewrite IH. f_equal. destruct t, t'; cbn in H; try discriminate H; reflexivity.
Qed.
End Sim.

Lemma threads_ids {N : NumOps} Err nthreads sched mw sort strategy (algo algo' : search_algo N) dist max events :
  (forall q, q < length events -> same_ids N (algo (length events) (dist_wrapper dist events) max q) (algo' (length events) (dist_wrapper dist events) max q)) ->
  threads_resample (Err := Err) nthreads sched mw sort strategy algo dist max events = threads_resample nthreads sched mw sort strategy algo' dist max events.
Proof.
  intros H. unfold threads_resample. destruct (select_seeds sort strategy (map ev_weights events)) as [seeds|]; [|reflexivity]. cbv zeta.
  set (s0 := conc_init nthreads seeds (map ev_weights events)).
  assert (S0 : same_state (length events) s0 s0).
  { repeat split; [|cbn; apply map_length]. generalize (threads s0). intros l. induction l; constructor; [apply same_thread_refl|assumption]. }
  pose proof (same_run mw _ _ (length events) H sched (length seeds * (11 + 4 * length (map ev_weights events))) 0 s0 s0 S0) as R.
  rewrite (same_finished _ _ _ R). destruct R as [-> _]. reflexivity.
Qed.
