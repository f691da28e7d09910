(** Linear combinations of weights in runs with several threads. *)
From Coq Require Import Reals Lra Lia FunctionalExtensionality.
From Verif Require Import Base BaseProofs Num ModelEvent ModelCell ModelSeeds ModelResampler ModelConc ModelThreads SpecWeights SpecMix SumProofs CellProofs RunProofs RunProofs2 MixProofs.
From Coq Require Import List.
Import ListNotations.
Local Open Scope R_scope.

Lemma add_spec (a : list RN) : forall b, length a = length b -> exists s, weights_add (N := RN) a b = Some s /\ length s = length a /\ forall j, nth j s 0 = nth j a 0 + nth j b 0.
Proof.
  induction a as [|x a IH]; intros [|y b] H; try discriminate.
  - exists []. repeat split. intros [|j]; cbn; ring.
  - injection H as H. destruct (IH b H) as (s & E & L & F). cbn [weights_add]. rewrite E. eexists. split; [reflexivity|]. split; [exact (f_equal Datatypes.S L)|]. intros [|j]; [reflexivity|apply F].
Qed.
Lemma comb_add co (a b s : list R) : (forall j, nth j s 0 = nth j a 0 + nth j b 0) -> combination co s = combination co a + combination co b.
Proof.
  intros H. unfold combination. induction (seq 0 (length co)) as [|j l IH]; cbn [map]; [change (Rsum []) with 0; ring|]. rewrite !Rsum_cons, IH, H. ring.
Qed.
Lemma comb_scale co (a : list R) c : combination co (map (fun w => w * c) a) = combination co a * c.
Proof.
  unfold combination. induction (seq 0 (length co)) as [|j l IH]; cbn [map]; [change (Rsum []) with 0; ring|]. rewrite !Rsum_cons, IH.
  assert (E : nth j (map (fun w => w * c) a) 0 = nth j a 0 * c). { transitivity (nth j (map (fun w => w * c) a) (0 * c)); [f_equal; ring|]. apply (map_nth (fun w => w * c)). }
  rewrite E. ring.
Qed.
Lemma mix_add A (a b s : list RN) : length a = length b -> weights_add (N := RN) a b = Some s -> weights_add (N := RN) (mix A a) (mix A b) = Some (mix A s).
Proof.
  intros H E. destruct (add_spec a b H) as (s' & E' & _ & F). rewrite E in E'. injection E' as <-. unfold mix. induction A as [|co A IH]; [reflexivity|]. cbn [map weights_add]. rewrite IH. rewrite (comb_add co a b s F). reflexivity.
Qed.
Lemma mix_ofold A n : forall (l : list (list RN)) (w : list RN), length w = n -> Forall (fun v => length v = n) l ->
  exists t, ofold (weights_add (N := RN)) l w = Some t /\ length t = n /\ ofold (weights_add (N := RN)) (map (mix A) l) (mix A w) = Some (mix A t).
Proof.
  induction l as [|v l IH]; intros w Hw Hl; cbn [map ofold]; [eauto|]. inversion Hl; subst. destruct (add_spec w v) as (s & E & L & _); [congruence|]. rewrite E.
  rewrite (mix_add A w v s) by (try congruence; exact E). apply IH; assumption.
Qed.

Section Mix.
Context (mw : bool) (nw : nat) (c0 : R) (others : list (list R)).
Let A := [c0] :: others.
Hypothesis Hc : 0 < c0.
Hypothesis Hmw : mw = false -> others = [].

Lemma get_mix (ws : list (list RN)) i : get_weights (N := RN) (map (mix A) ws) i = option_map (mix A) (get_weights (N := RN) ws i).
Proof. exact (nth_error_map (mix A) i ws). Qed.
Lemma omap_mix (ws : list (list RN)) l : omap (get_weights (N := RN) (map (mix A) ws)) l = option_map (map (mix A)) (omap (get_weights (N := RN) ws) l).
Proof.
  induction l as [|i l IH]; [reflexivity|]. cbn [omap]. rewrite IH, get_mix. destruct (get_weights (N := RN) ws i); cbn [option_map]; [|reflexivity]. destruct (omap (get_weights (N := RN) ws) l); reflexivity.
Qed.
Lemma omap_weights (ws : list (list RN)) l : shaped mw nw ws -> omap (weight_at (N := RN) (map (mix A) ws)) l = option_map (map (Rmult c0)) (omap (weight_at (N := RN) ws) l).
Proof.
  intros H. induction l as [|i l IH]; [reflexivity|]. cbn [omap]. rewrite IH. unfold A. rewrite (mix_weight mw nw c0 others ws i H). destruct (weight_at (N := RN) ws i); cbn [option_map]; [|reflexivity]. destruct (omap (weight_at (N := RN) ws) l); reflexivity.
Qed.
Lemma omap_uniform n (ws l' : list (list RN)) l : uniform n ws -> omap (get_weights (N := RN) ws) l = Some l' -> Forall (fun v => length v = n) l'.
Proof.
  intros U. revert l'. induction l as [|i l IH]; intros l' H; cbn [omap] in H; [injection H as <-; constructor|]. destruct (get_weights (N := RN) ws i) as [w|] eqn:E; [|discriminate].
  destruct (omap (get_weights (N := RN) ws) l) as [k|]; [|discriminate]. injection H as <-. constructor; [|apply IH; reflexivity]. unfold uniform in U. rewrite Forall_forall in U. apply U. eapply nth_error_In. exact E.
Qed.
Lemma nsum_scale (l : list RN) : nsum (N := RN) (map (Rmult c0) l) = c0 * nsum (N := RN) l.
Proof.
  rewrite !nsum_RN. change (Rsum (map (Rmult c0) l) = c0 * Rsum l). induction l as [|x l IH]; cbn [map].
  - unfold Rsum. cbn. ring.
  - assert (X : forall (y : R) k, Rsum (y :: k) = y + Rsum k) by (intros; apply Rsum_cons). etransitivity; [apply X|]. etransitivity; [apply (f_equal (Rplus (c0 * x))); exact IH|]. etransitivity; [|apply (f_equal (Rmult c0)); symmetry; apply X]. ring.
Qed.

Lemma mix_average (ws : list (list RN)) ms : shaped mw nw ws ->
  match cell_average (N := RN) mw ws ms with
  | Some avg => length avg = nw /\ cell_average (N := RN) mw (map (mix A) ws) ms = Some (mix A avg)
  | None => cell_average (N := RN) mw (map (mix A) ws) ms = None
  end.
Proof.
  intros Hw. pose proof Hw as (H1 & H2 & U). unfold cell_average. destruct mw eqn:Em.
  - destruct ms as [|i ms]; [reflexivity|]. rewrite omap_mix, get_mix. destruct (get_weights (N := RN) ws i) as [w0|] eqn:E0; [|reflexivity]. destruct (omap (get_weights (N := RN) ws) ms) as [wr|] eqn:Er; [|reflexivity]. cbn [option_map].
    destruct (mix_ofold A nw wr w0) as (t & T1 & T2 & T3); [unfold uniform in U; rewrite Forall_forall in U; apply U; eapply nth_error_In; exact E0|eapply omap_uniform; eassumption|].
    rewrite T1, T3. cbv zeta. split; [rewrite map_length; exact T2|]. f_equal. unfold mix. rewrite map_map. apply map_ext. intros co. symmetry. apply comb_scale.
  - rewrite <- Em in Hw. rewrite (omap_weights ws ms Hw). destruct (omap (weight_at (N := RN) ws) ms) as [wts|]; [|reflexivity]. cbn [option_map]. split; [symmetry; apply H2; reflexivity|]. f_equal.
    rewrite nsum_scale. unfold mix, A. rewrite (Hmw eq_refl). unfold combination. cbn [map length seq nth]. rewrite Rsum_cons. change (Rsum []) with 0. f_equal. cbn. unfold Rdiv. ring.
Qed.
Lemma set_map B C (g : B -> C) x : forall l i, set_nth i (g x) (map g l) = option_map (map g) (set_nth i x l).
Proof. induction l as [|a l IH]; intros [|i]; cbn; try reflexivity. rewrite IH. destruct (set_nth i x l); reflexivity. Qed.
Lemma set_Forall B (P : B -> Prop) x : forall l i l', P x -> Forall P l -> set_nth i x l = Some l' -> Forall P l'.
Proof.
  induction l as [|a l IH]; intros [|i] l' Hx Hl H; cbn in H; try discriminate; inversion Hl; subst.
  - injection H as <-. constructor; assumption.
  - destruct (set_nth i x l) eqn:E; [|discriminate]. injection H as <-. constructor; [assumption|]. eapply IH; eassumption.
Qed.
Lemma mix_write (ws : list (list RN)) i avg : shaped mw nw ws -> length avg = nw ->
  match write_weights (N := RN) mw ws i avg with
  | Some m => shaped mw nw m /\ write_weights (N := RN) mw (map (mix A) ws) i (mix A avg) = Some (map (mix A) m)
  | None => write_weights (N := RN) mw (map (mix A) ws) i (mix A avg) = None
  end.
Proof.
  intros (H1 & H2 & U) L.
  assert (G : forall w : list RN, length w = nw -> match set_nth i w ws with Some m => shaped mw nw m /\ set_nth i (mix A w) (map (mix A) ws) = Some (map (mix A) m) | None => set_nth i (mix A w) (map (mix A) ws) = None end).
  { intros w Hw. pose proof (set_map _ _ (mix A) w ws i) as S. destruct (set_nth i w ws) as [m|] eqn:E; pose proof (eq_trans S (f_equal (option_map (map (mix A))) E)) as S2; cbn [option_map] in S2; [|exact S2]. split; [|exact S2]. split; [exact H1|]. split; [exact H2|]. unfold uniform in *. eapply set_Forall; [|exact U|exact E]. exact Hw. }
  unfold write_weights. destruct mw; [|apply G; exact L]. rewrite get_mix. destruct (get_weights (N := RN) ws i) as [old|] eqn:E; cbn [option_map]; [|reflexivity].
  assert (Lo : length old = nw) by (unfold uniform in U; rewrite Forall_forall in U; apply U; eapply nth_error_In; exact E).
  unfold weights_copy_from. rewrite L, Lo, Nat.eqb_refl. assert (M : Nat.eqb (@length (num RN) (mix A old)) (@length (num RN) (mix A avg)) = true) by (apply Nat.eqb_eq; exact (eq_trans (mix_length c0 others old) (eq_sym (mix_length c0 others avg)))).
  rewrite M. apply G. exact L.
Qed.

(** *** Threads *)
Definition mixed_thread (t t' : tstate RN) : Prop :=
  match t, t' with
  | TIdle, TIdle => True
  | TCheck a, TCheck b => a = b
  | TStart a, TStart b => a = b
  | TGrow c l, TGrow c' l' => scaled_cell c0 c c' /\ l = l'
  | TLock h l, TLock h' l' => h = h' /\ l = l'
  | TWrite avg l h, TWrite avg' l' h' => length avg = nw /\ avg' = mix A avg /\ l = l' /\ h = h'
  | _, _ => False
  end.
Definition mixed_state (s s' : cstate RN) : Prop :=
  shaped mw nw (mem s) /\ mem s' = map (mix A) (mem s) /\ pool s = pool s' /\ Forall2 mixed_thread (threads s) (threads s').
Lemma mixed_held t t' : mixed_thread t t' -> held_of t = held_of t'.
Proof. destruct t, t'; cbn; intros H; try contradiction; try reflexivity; [apply H|]. destruct H as (_ & _ & _ & H). exact H. Qed.
Lemma mixed_locked s s' i : mixed_state s s' -> is_locked s i = is_locked s' i.
Proof.
  intros (_ & _ & _ & F). unfold is_locked. induction F as [|t t' l l' H F IH]; [reflexivity|]. cbn [existsb]. rewrite (mixed_held _ _ H), IH. reflexivity.
Qed.
Lemma mixed_read s s' i : mixed_state s s' -> read_weight s' i = option_map (Rmult c0) (read_weight s i).
Proof.
  intros H. unfold read_weight. rewrite (mixed_locked _ _ i H). destruct H as (Hs & -> & _). destruct (is_locked s' i); [reflexivity|]. exact (mix_weight mw nw c0 others (mem s) i Hs).
Qed.
Lemma set_nth_mixed l l' : Forall2 mixed_thread l l' -> forall i t t', mixed_thread t t' ->
  match set_nth i t l, set_nth i t' l' with Some a, Some b => Forall2 mixed_thread a b | None, None => True | _, _ => False end.
Proof.
  induction 1 as [|x x' l l' H F IH]; intros [|i] t t' Ht; cbn; auto. specialize (IH i t t' Ht). destruct (set_nth i t l), (set_nth i t' l'); auto.
Qed.
Lemma nth_mixed l l' i : Forall2 mixed_thread l l' -> match nth_error l i, nth_error l' i with Some t, Some t' => mixed_thread t t' | None, None => True | _, _ => False end.
Proof. intros F. revert i. induction F as [|x x' l l' H F IH]; intros [|i]; cbn; auto. apply IH. Qed.
Definition mixed_opt (o o' : option (cstate RN)) : Prop := match o, o' with Some s, Some s' => mixed_state s s' | None, None => True | _, _ => False end.
Lemma mixed_go s s' t (m m' : weights_state RN) p ts ts' : mixed_state s s' -> shaped mw nw m -> m' = map (mix A) m -> mixed_thread ts ts' ->
  mixed_opt (match set_nth t ts (threads s) with None => None | Some l => Some (mkConc m p l) end)
            (match set_nth t ts' (threads s') with None => None | Some l => Some (mkConc m' p l) end).
Proof.
  intros (_ & _ & _ & F) Hm E Ht. pose proof (set_nth_mixed _ _ F t ts ts' Ht) as H.
  destruct (set_nth t ts (threads s)), (set_nth t ts' (threads s')); cbn; auto. repeat split; auto; apply Hm.
Qed.
Context (near : search RN).
Lemma mixed_step s s' t k : mixed_state s s' -> mixed_opt (thread_step mw near s t k) (thread_step mw near s' t k).
Proof.
  intros H. pose proof H as (Hs & Hm & Hp & HF). unfold thread_step. pose proof (nth_mixed _ _ t HF) as Ht. rewrite <- Hp.
  assert (Go : forall p ts ts', mixed_thread ts ts' -> mixed_opt (match set_nth t ts (threads s) with None => None | Some l => Some (mkConc (mem s) p l) end) (match set_nth t ts' (threads s') with None => None | Some l => Some (mkConc (mem s') p l) end)).
  { intros p ts ts' Hts. apply mixed_go; assumption. }
  destruct (nth_error (threads s) t) as [a|], (nth_error (threads s') t) as [b|]; try contradiction; [|exact I].
  destruct a as [|seed|seed|c l|held todo|avg tw held]; destruct b as [|seed'|seed'|c' l'|held' todo'|avg' tw' held']; cbn [mixed_thread] in Ht; try contradiction.
  - assert (L : length (mem s') = length (mem s)) by (rewrite Hm; exact (map_length (mix A) (mem s))).
    destruct (nth_error (pool s) k) as [seed|]; [|exact I]. rewrite L. destruct (length (mem s) <=? seed)%nat; [exact I|]. apply Go. reflexivity.
  - subst seed'. rewrite (mixed_read _ _ seed H). destruct (read_weight s seed) as [w|]; [|exact I]. cbn [option_map]. assert (Sg : nltb (n := RN) n0 (c0 * w) = nltb (n := RN) n0 w) by exact (sign_gt c0 Hc w).
    rewrite Sg. apply Go. destruct (nltb (n := RN) n0 w); reflexivity.
  - subst seed'. rewrite (mixed_read _ _ seed H). destruct (read_weight s seed) as [w|]; [|exact I]. cbn [option_map]. destruct (near seed) as [l|]; [|exact I]. apply Go. cbn. repeat split.
  - destruct Ht as [[Hcm Hcw] <-]. destruct l as [|[i d] l].
    + rewrite Hcm. apply Go. split; reflexivity.
    + rewrite (mixed_read _ _ i H). destruct (read_weight s i) as [w|]; [|exact I]. cbn [option_map]. cbv zeta. cbn [members]. rewrite <- Hcm, Hcw.
      assert (E : nadd (n := RN) (c0 * weight_sum c) (c0 * w) = c0 * nadd (n := RN) (weight_sum c) w) by (cbn; ring).
      assert (G : nleb (n := RN) n0 (c0 * nadd (n := RN) (weight_sum c) w) = nleb (n := RN) n0 (nadd (n := RN) (weight_sum c) w)).
      { etransitivity; [|apply (scale_le c0 Hc)]. apply (f_equal (fun z => nleb (n := RN) z (c0 * nadd (n := RN) (weight_sum c) w))). cbn. ring. }
      rewrite E, G. apply Go. destruct (nleb (n := RN) n0 (nadd (n := RN) (weight_sum c) w)); cbn; repeat split.
  - destruct Ht as [<- <-]. destruct todo as [|i todo].
    + pose proof (mix_average (mem s) held Hs) as M. rewrite Hm in *. destruct (cell_average (N := RN) mw (mem s) held) as [avg|].
      * destruct M as [M1 M2]. assert (M3 : cell_average (N := RN) mw (map (mix A) (mem s)) held = Some (mix A avg)) by exact M2. rewrite M3. apply Go. cbn. auto.
      * rewrite M. exact I.
    + rewrite (mixed_locked _ _ i H). destruct (is_locked s' i); [exact I|]. apply Go. split; reflexivity.
  - destruct Ht as (L & -> & <- & <-). destruct tw as [|i tw].
    + destruct held as [|j held]; apply Go; cbn; auto.
    + pose proof (mix_write (mem s) i avg Hs L) as M. rewrite Hm. destruct (write_weights (N := RN) mw (mem s) i avg) as [m|].
      * destruct M as [M1 M2]. rewrite M2. apply mixed_go; [exact H|exact M1|reflexivity|]. cbn. auto.
      * rewrite M. exact I.
Qed.
Lemma mixed_first s s' l : mixed_state s s' -> mixed_opt (first_step mw near s l) (first_step mw near s' l).
Proof.
  intros H. induction l as [|[t k] l IH]; [exact I|]. cbn [first_step]. pose proof (mixed_step s s' t k H) as Hs.
  destruct (thread_step mw near s t k), (thread_step mw near s' t k); cbn in Hs; try contradiction; auto.
Qed.
Lemma mixed_run sched fuel : forall k s s', mixed_state s s' -> mixed_state (threads_run mw near sched fuel k s) (threads_run mw near sched fuel k s').
Proof.
  induction fuel as [|fuel IH]; intros k s s' H; [exact H|]. cbn [threads_run]. unfold sched_step.
  assert (E : all_steps s = all_steps s').
  { destruct H as (_ & _ & Hp & F). unfold all_steps. rewrite Hp. f_equal. f_equal. clear -F. induction F; cbn; congruence. }
  rewrite <- E. pose proof (mixed_first s s' (sched k :: all_steps s) H) as Hs.
  destruct (first_step mw near s (sched k :: all_steps s)), (first_step mw near s' (sched k :: all_steps s)); cbn in Hs; try contradiction; auto.
Qed.
Lemma mixed_finished s s' : mixed_state s s' -> finished s = finished s'.
Proof.
  intros (_ & _ & Hp & F). unfold finished. rewrite Hp. destruct (pool s'); [|reflexivity].
  induction F as [|t t' l l' H F IH]; [reflexivity|]. cbn [forallb]. rewrite IH. f_equal. destruct t, t'; cbn in H; try contradiction; reflexivity.
Qed.
End Mix.
