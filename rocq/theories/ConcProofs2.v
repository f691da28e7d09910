(** More about [ModelConc]: nothing panics, step bound, one thread, exact totals. *)
From Coq Require Import Reals.
From Verif Require Import Base BaseProofs Num ModelEvent ModelCell ModelSeeds ModelResampler ModelConc
  SpecWeights SpecSearch SpecConc SumProofs CellProofs RunProofs RunProofs2 ConcProofs.
Set Implicit Arguments.
Unset Strict Implicit.

Section Conc2.
Context (N : NumOps) (mw : bool) (nw : nat) (nearest : search N).
Context (ws0 : weights_state N) (seeds0 : list nat).
Notation n := (length ws0).
Hypothesis Hsearch : valid_search n nearest.
Hypothesis Hshaped : shaped mw nw ws0.
Hypothesis Hseeds : forall s, In s seeds0 -> s < n.

Implicit Types (s : cstate N) (V : weights_state N).
Notation Inv := (Inv mw nw nearest ws0 seeds0).
Notation cell_like := (cell_like nearest seeds0).

Lemma inv_of k nthreads s : conc_steps mw nearest k (conc_init nthreads seeds0 ws0) s -> Inv s.
Proof. intros H. exact (steps_inv Hsearch Hshaped Hseeds (init_inv nearest seeds0 Hshaped nthreads) H). Qed.

Lemma only_waits s t x : Inv s -> nth_error (threads s) t = Some x ->
  (exists choice s', thread_step mw nearest s t choice = Some s') \/
  (x = TIdle /\ pool s = []) \/
  (exists i t' y, wants x i /\ t' <> t /\ nth_error (threads s) t' = Some y /\ In i (held_of y)).
Proof.
  intros HI Ht. pose proof (inv_thr HI Ht) as Hok.
  assert (Hread : forall i, i < n -> (exists w, read_weight s i = Some w) \/
     (exists t' y, nth_error (threads s) t' = Some y /\ In i (held_of y))).
  { intros i Hi. unfold read_weight. destruct (is_locked s i) eqn:El.
    - right. apply is_locked_true in El. auto.
    - left. apply (shaped_weight_at (inv_shaped HI)). rewrite (inv_len HI). auto. }
  assert (Hother : forall i t' y, held_of x = [] -> nth_error (threads s) t' = Some y -> In i (held_of y) -> t' <> t).
  { intros i t' y Hx Ht' Hi ->. assert (y = x) as -> by congruence. rewrite Hx in Hi. destruct Hi. }
  destruct x as [|seed|seed|c nbrs|held todo|avg tw held].
  - destruct (pool s) as [|seed p] eqn:Ep; [right; left; auto|]. left.
    destruct (@go_some _ s t _ (mem s) (remove_nth 0 (pool s)) (TCheck seed) Ht) as [s' Hs].
    exists 0, s'. unfold thread_step. rewrite Ht, Ep. cbn [nth_error].
    replace (length (mem s) <=? seed) with false; [rewrite Ep in Hs; exact Hs|].
    symmetry. apply Nat.leb_gt. rewrite (inv_len HI). apply Hseeds, (inv_pool HI). rewrite Ep. left; auto.
  - destruct (Hread seed (Hseeds Hok)) as [[w Hw]|(t' & y & H1 & H2)].
    + left. destruct (@go_some _ s t _ (mem s) (pool s) (if nltb n0 w then TIdle else TStart seed) Ht) as [s' Hs].
      exists 0, s'. unfold thread_step. rewrite Ht, Hw. exact Hs.
    + right; right. exists seed, t', y. repeat split; auto. eapply Hother; eauto.
  - destruct (Hread seed (Hseeds Hok)) as [[w Hw]|(t' & y & H1 & H2)].
    + left. destruct (Hsearch (Hseeds Hok)) as (nbrs & Hn & _).
      destruct (@go_some _ s t _ (mem s) (pool s) (TGrow (mkCell [seed] n0 w) nbrs) Ht) as [s' Hs].
      exists 0, s'. unfold thread_step. rewrite Ht, Hw, Hn. exact Hs.
    + right; right. exists seed, t', y. repeat split; auto. eapply Hother; eauto.
  - destruct Hok as (seed & all & k & Hs & Hn & Hk & Hnb & Hm). destruct nbrs as [|[i d] rest].
    + left. destruct (@go_some _ s t _ (mem s) (pool s) (TLock [] (isort Nat.leb (members c))) Ht) as [s' Hs'].
      exists 0, s'. unfold thread_step. rewrite Ht. exact Hs'.
    + assert (Hi : i < n).
      { destruct (Hsearch (Hseeds Hs)) as (nb & Hn' & _ & Hr). assert (nb = all) as -> by congruence.
        apply Hr. apply (in_map fst) with (x := (i, d)). rewrite <- (firstn_skipn k all). apply in_or_app. right.
        rewrite <- Hnb. left; auto. }
      destruct (Hread i Hi) as [[w Hw]|(t' & y & H1 & H2)].
      * left. destruct (@go_some _ s t _ (mem s) (pool s)
          (if nleb n0 (nadd (weight_sum c) w) then TLock [] (isort Nat.leb (members c ++ [i]))
           else TGrow (mkCell (members c ++ [i]) d (nadd (weight_sum c) w)) rest) Ht) as [s' Hs'].
        exists 0, s'. unfold thread_step. rewrite Ht, Hw. exact Hs'.
      * right; right. exists i, t', y. repeat split; auto. eapply Hother; eauto.
  - destruct Hok as [Hl Hso]. destruct todo as [|i todo].
    + left. rewrite app_nil_r in Hl. destruct (cell_like_ok Hsearch Hseeds Hl) as (_ & Hne & Hlt).
      destruct (@average_some _ mw nw (mem s) held) as [avg Ea]; auto.
      { apply (inv_shaped HI). } { rewrite (inv_len HI). auto. }
      destruct (@go_some _ s t _ (mem s) (pool s) (TWrite avg (write_order mw held) held) Ht) as [s' Hs].
      exists 0, s'. unfold thread_step. rewrite Ht, Ea. exact Hs.
    + destruct (is_locked s i) eqn:El.
      * right; right. apply is_locked_true in El. destruct El as (t' & y & H1 & H2).
        exists i, t', y. repeat split; auto. intros ->. assert (y = TLock held (i :: todo)) as -> by congruence.
        cbn in H2. apply sorted_lt_NoDup in Hso. apply NoDup_remove_2 in Hso. apply Hso, in_or_app. auto.
      * left. destruct (@go_some _ s t _ (mem s) (pool s) (TLock (held ++ [i]) todo) Ht) as [s' Hs].
        exists 0, s'. unfold thread_step. rewrite Ht, El. exact Hs.
  - left. destruct Hok as (_ & _ & Hinc & Hlt & Hla). destruct tw as [|j tw].
    + destruct held as [|j held].
      * destruct (@go_some _ s t _ (mem s) (pool s) TIdle Ht) as [s' Hs].
        exists 0, s'. unfold thread_step. rewrite Ht. exact Hs.
      * destruct (@go_some _ s t _ (mem s) (pool s) (TWrite avg [] held) Ht) as [s' Hs].
        exists 0, s'. unfold thread_step. rewrite Ht. exact Hs.
    + assert (Hj : j < length (mem s)) by (rewrite (inv_len HI); apply Hlt, Hinc; left; auto).
      assert (exists m', write_weights mw (mem s) j avg = Some m') as [m' Em].
      { unfold write_weights, get_weights. destruct mw eqn:Emw; [|apply set_nth_some; auto].
        destruct (shaped_nth (inv_shaped HI) Hj) as (w & -> & Lw). unfold weights_copy_from.
        rewrite Lw, Hla, Nat.eqb_refl. apply set_nth_some; auto. }
      destruct (@go_some _ s t _ m' (pool s) (TWrite avg tw (if mw then held else tw)) Ht) as [s' Hs].
      exists 0, s'. unfold thread_step. rewrite Ht, Em. exact Hs.
Qed.

Lemma nbrs_bound seed nbrs : seed < n -> @neighbours_of N n seed nbrs -> length nbrs <= n.
Proof.
  intros Hs [Hnd Hr]. rewrite <- (map_length fst nbrs), <- (seq_length n 0).
  apply NoDup_incl_length; auto. intros i Hi. apply Hr in Hi. apply in_seq. lia.
Qed.

Lemma steps_bound' nthreads k s : conc_steps mw nearest k (conc_init nthreads seeds0 ws0) s ->
  k <= length seeds0 * (11 + 4 * n).
Proof.
  intros H. pose proof (steps_bound Hsearch Hshaped Hseeds H) as Hb.
  assert (Hle : list_sum (map (seed_cost nearest) seeds0) <= length seeds0 * (11 + 4 * n)); [|lia].
  clear - Hsearch Hseeds. induction seeds0 as [|a t IH]; [cbn; lia|].
  change (list_sum (map (seed_cost nearest) (a :: t))) with (seed_cost nearest a + list_sum (map (seed_cost nearest) t)).
  cbn [length]. assert (Ha : a < n) by (apply Hseeds; left; auto).
  assert (seed_cost nearest a <= 11 + 4 * n).
  { unfold seed_cost, nbr_count. destruct (Hsearch Ha) as (nb & -> & Hnb). pose proof (nbrs_bound Ha Hnb). lia. }
  assert (list_sum (map (seed_cost nearest) t) <= length t * (11 + 4 * n)); [|lia].
  apply IH. intros s Hs. apply Hseeds. right; auto.
Qed.

(** *** One thread *)
Inductive one_ok (s : cstate N) (V : weights_state N) : tstate N -> list nat -> Prop :=
| o_idle : mem s = V -> one_ok s V TIdle []
| o_check seed : mem s = V -> one_ok s V (TCheck seed) [seed]
| o_start seed w : mem s = V -> weight_at V seed = Some w -> nltb n0 w = false -> one_ok s V (TStart seed) [seed]
| o_grow seed w all c nbrs : mem s = V -> weight_at V seed = Some w -> nltb n0 w = false ->
    nearest seed = Some all -> cell_new V seed all = cell_grow V nbrs c -> one_ok s V (TGrow c nbrs) [seed]
| o_lock seed w all c held todo : mem s = V -> weight_at V seed = Some w -> nltb n0 w = false ->
    nearest seed = Some all -> cell_new V seed all = Some c -> isort Nat.leb (members c) = held ++ todo ->
    one_ok s V (TLock held todo) [seed]
| o_write seed w all c avg tw held V' : length (mem s) = length V ->
    weight_at V seed = Some w -> nltb n0 w = false ->
    nearest seed = Some all -> cell_new V seed all = Some c -> cell_resample mw V c = Some V' ->
    (forall i, nth_error V' i = if in_dec Nat.eq_dec i tw then Some avg else nth_error (mem s) i) ->
    one_ok s V (TWrite avg tw held) [seed].

(** [order]: the seeds in the order in which they have been and are going to be treated, if the
    thread takes the remaining ones in the order of the pool *)
Definition OneInv s order : Prop :=
  exists x done cur V cells, threads s = [x] /\ done ++ cur ++ pool s = order /\
    resample_seeds mw nearest done ws0 = Some (V, cells) /\ one_ok s V x cur.

Lemma remove_nth_perm A k (l : list A) x : nth_error l k = Some x -> Permutation (x :: remove_nth k l) l.
Proof.
  revert k. induction l as [|a t IH]; intros [|k] H; cbn in *; try discriminate.
  - injection H as ->. auto.
  - rewrite perm_swap. auto.
Qed.

Lemma seeds_snoc done seed V V' cells c w all :
  resample_seeds mw nearest done ws0 = Some (V, cells) -> seed < length V ->
  weight_at V seed = Some w -> nltb n0 w = false -> nearest seed = Some all -> cell_new V seed all = Some c ->
  cell_resample mw V c = Some V' ->
  resample_seeds mw nearest (done ++ [seed]) ws0 = Some (V', cells ++ [c]).
Proof.
  intros H Hlt H1 H2 H3 H4 H5. unfold resample_seeds in *. rewrite ofold_app, H. cbn [ofold].
  unfold seed_step. rewrite H1, H2, H3, H4, H5.
  destruct (Nat.leb_spec (length V) seed); [lia|]. reflexivity.
Qed.

Lemma one_step s s' t k order : Inv s -> OneInv s order -> Permutation order seeds0 -> thread_step mw nearest s t k = Some s' ->
  exists order', OneInv s' order' /\ Permutation order' seeds0 /\ (k = 0 -> order' = order).
Proof.
  intros HI (x & done & cur & V & cells & Hth & Hp & Hrun & Hok) Hperm H.
  unfold thread_step in H. rewrite Hth in H.
  destruct t as [|t]; [|destruct t; discriminate]. cbn [nth_error set_nth] in H.
  assert (Hfree : forall i, held_of x = [] -> is_locked s i = false).
  { intros i Hx. unfold is_locked. rewrite Hth. cbn. rewrite Hx. reflexivity. }
  assert (HlV : length V = n).
  { clear - Hrun Hshaped Hsearch. unfold resample_seeds in Hrun.
    assert (G : forall l st st', ofold (seed_step mw nearest) l st = Some st' -> length (fst st') = length (fst st)).
    { induction l as [|a l IH]; intros st st' E; cbn in E; [congruence|].
      destruct (seed_step mw nearest st a) as [st1|] eqn:E1; [|discriminate]. rewrite (IH _ _ E).
      clear - E1. destruct st as [ws cs]. unfold seed_step in E1. destruct (length ws <=? a); [discriminate|].
      destruct (weight_at ws a); [|discriminate]. destruct (nltb n0 _); [congruence|].
      destruct (nearest a); [|discriminate]. destruct (cell_new ws a l); [|discriminate].
      destruct (cell_resample mw ws c) as [ws'|] eqn:E; [|discriminate]. injection E1 as <-. cbn.
      apply resample_frame in E. tauto. }
    apply G in Hrun. exact Hrun. }
  assert (Hsame : OneInv s' order -> exists order', OneInv s' order' /\ Permutation order' seeds0 /\ (k = 0 -> order' = order)) by eauto.
  destruct Hok as [Hm|seed Hm|seed w Hm Hw Hlt|seed w all c nbrs Hm Hw Hlt Hn Hc|seed w all c held todo Hm Hw Hlt Hn Hc Hso
    |seed w all c avg tw held V' Hlen Hw Hlt Hn Hc Hr Hmem].
  - clear Hsame. destruct (nth_error (pool s) k) as [seed|] eqn:Ep; [|discriminate].
    destruct (length (mem s) <=? seed) eqn:El; [discriminate|]. injection H as <-.
    exists (done ++ [seed] ++ remove_nth k (pool s)). split; [|split].
    + exists (TCheck seed), done, [seed], V, cells. cbn. split; auto. split; [reflexivity|split; auto; constructor; auto].
    + apply remove_nth_perm in Ep. cbn in *. rewrite Ep, Hp. exact Hperm.
    + intros ->. rewrite <- Hp. destruct (pool s); [discriminate|]. injection Ep as ->. reflexivity.
  - apply Hsame. clear Hsame. unfold read_weight in H. rewrite Hfree in H by auto. rewrite Hm in H.
    destruct (weight_at V seed) as [w|] eqn:Ew; [|discriminate]. injection H as <-. destruct (nltb n0 w) eqn:El.
    + exists TIdle, (done ++ [seed]), [], V, cells. cbn. split; auto. split; [rewrite <- app_assoc; exact Hp|].
      split; [|constructor; auto]. unfold resample_seeds in *. rewrite ofold_app, Hrun. cbn [ofold].
      unfold seed_step. rewrite Ew, El. destruct (Nat.leb_spec (length V) seed) as [Hle|]; auto.
      exfalso. unfold weight_at in Ew. destruct (nth_error V seed) eqn:E; [|discriminate].
      assert (seed < length V) by (apply nth_error_Some; congruence). lia.
    + exists (TStart seed), done, [seed], V, cells. cbn. split; auto. split; auto. split; auto. econstructor; eauto.
  - apply Hsame. clear Hsame. unfold read_weight in H. rewrite Hfree in H by auto. rewrite Hm, Hw in H.
    destruct (nearest seed) as [all|] eqn:En; [|discriminate]. injection H as <-.
    eexists _, done, [seed], V, cells. cbn. split; [reflexivity|]. split; auto. split; auto.
    eapply o_grow; eauto. unfold cell_new. rewrite Hw. reflexivity.
  - apply Hsame. clear Hsame. destruct nbrs as [|[i d] rest].
    + injection H as <-. cbn in Hc. eexists _, done, [seed], V, cells. cbn. split; [reflexivity|]. split; auto. split; auto.
      eapply o_lock; eauto.
    + unfold read_weight in H. rewrite Hfree in H by auto. rewrite Hm in H.
      destruct (weight_at V i) as [wi|] eqn:Ei; [|discriminate]. cbv zeta in H. injection H as <-.
      cbn [cell_grow] in Hc. rewrite Ei in Hc. cbv zeta in Hc.
      destruct (nleb n0 (nadd (weight_sum c) wi)).
      * eexists _, done, [seed], V, cells. cbn. split; [reflexivity|]. split; auto. split; auto.
        eapply o_lock; eauto.
      * eexists _, done, [seed], V, cells. cbn. split; [reflexivity|]. split; auto. split; auto.
        eapply o_grow; eauto.
  - apply Hsame. clear Hsame. assert (Hin : In seed seeds0).
    { rewrite <- Hp in Hperm. eapply Permutation_in; [exact Hperm|]. apply in_or_app. right. left. auto. }
    destruct todo as [|i todo].
    + destruct (cell_average mw (mem s) held) as [avg|] eqn:Ea; [|discriminate]. injection H as <-.
      rewrite app_nil_r in Hso.
      assert (Ht : nth_error (threads s) 0 = Some (TLock held [])) by (rewrite Hth; auto).
      destruct (inv_thr HI Ht) as [Hl _]. rewrite app_nil_r in Hl.
      destruct (cell_like_ok Hsearch Hseeds Hl) as (Hnd & Hne & Hlth).
      assert (Hpm : Permutation (members c) held) by (rewrite <- Hso; apply isort_perm).
      destruct (@resample_some N mw nw V c) as [V' HV'].
      { rewrite <- Hm. apply (inv_shaped HI). }
      { eapply Permutation_NoDup; [apply Permutation_sym|]; eauto. }
      { intros E. rewrite E in Hpm. apply Permutation_nil in Hpm. auto. }
      { intros i Hi. rewrite HlV. apply Hlth. eapply Permutation_in; eauto. }
      destruct (resample_average HV') as (avg' & Ea' & Hfr). rewrite Hso, <- Hm, Ea in Ea'. injection Ea' as <-.
      eexists _, done, [seed], V, cells. cbn. split; [reflexivity|]. split; auto. split; auto.
      eapply o_write; eauto; [cbn; congruence|]. cbn [mem]. rewrite Hm. intros i. rewrite Hfr.
      pose proof (write_order_perm mw held) as Hwo.
      destruct (in_dec Nat.eq_dec i (members c)) as [H1|H1], (in_dec Nat.eq_dec i (write_order mw held)) as [H2|H2]; auto; exfalso.
      * apply H2. eapply Permutation_in; [exact Hwo|]. eapply Permutation_in; eauto.
      * apply H1. eapply Permutation_in; [apply Permutation_sym; exact Hpm|].
        eapply Permutation_in; [apply Permutation_sym; exact Hwo|]. auto.
    + destruct (is_locked s i); [discriminate|]. injection H as <-.
      eexists _, done, [seed], V, cells. cbn. split; [reflexivity|]. split; auto. split; auto.
      eapply o_lock; eauto. rewrite <- app_assoc. exact Hso.
  - apply Hsame. clear Hsame. destruct tw as [|i rest].
    + destruct held as [|j held].
      * injection H as <-. assert (Hs : seed < length V).
        { unfold weight_at in Hw. destruct (nth_error V seed) eqn:E; [|discriminate]. apply nth_error_Some; congruence. }
        eexists _, (done ++ [seed]), [], V', (cells ++ [c]). cbn. split; [reflexivity|].
        split; [rewrite <- app_assoc; exact Hp|]. split; [eapply seeds_snoc; eauto|].
        constructor. cbn. symmetry. apply nth_error_ext. intros i. rewrite Hmem. reflexivity.
      * injection H as <-. eexists _, done, [seed], V, cells. cbn. split; [reflexivity|]. split; auto. split; auto.
        eapply o_write; eauto.
    + destruct (write_weights mw (mem s) i avg) as [m|] eqn:Ew; [|discriminate]. injection H as <-.
      apply write_weights_set in Ew. apply set_nth_spec in Ew. destruct Ew as (Hi & Hlm & Hset).
      eexists _, done, [seed], V, cells. cbn. split; [reflexivity|]. split; auto. split; auto.
      eapply o_write; eauto; [cbn; congruence|]. cbn [mem]. intros j. rewrite Hmem, Hset.
      destruct (in_dec Nat.eq_dec j (i :: rest)) as [H1|H1], (in_dec Nat.eq_dec j rest) as [H2|H2]; auto.
      * destruct H1 as [->|H1]; [rewrite Nat.eqb_refl; auto|contradiction].
      * exfalso. apply H1. right; auto.
      * destruct (Nat.eqb_spec j i) as [->|]; auto. exfalso. apply H1. left; auto.
Qed.

Lemma one_init : OneInv (conc_init 1 seeds0 ws0) seeds0.
Proof. exists TIdle, [], [], ws0, []. cbn. repeat split; auto. constructor; auto. Qed.
Lemma one_finished s order : OneInv s order -> finished s -> exists cells, resample_seeds mw nearest order ws0 = Some (mem s, cells).
Proof.
  intros (x & done & cur & V & cells & Hth & Hp & Hrun & Hok) [Hpool Hidle].
  rewrite Hth in Hidle. inversion Hidle as [|? ? Hx _]; subst x. inversion Hok; subst.
  rewrite Hpool, !app_nil_r. eauto.
Qed.

Lemma one_thread k s : conc_steps mw nearest k (conc_init 1 seeds0 ws0) s -> finished s ->
  exists order cells, Permutation order seeds0 /\ resample_seeds mw nearest order ws0 = Some (mem s, cells).
Proof.
  intros H Hf.
  assert (HO : exists order, OneInv s order /\ Permutation order seeds0).
  { remember (conc_init 1 seeds0 ws0) as s0 eqn:E. clear Hf.
    induction H as [s1|k s1 s2 s3 H IH Hst]; subst.
    - exists seeds0. split; [apply one_init|auto].
    - destruct (IH eq_refl) as (o & HO & Ho). destruct Hst as (t & c & Hst). 
      destruct (one_step (inv_of H) HO Ho Hst) as (o' & A & B & _). eauto. }
  destruct HO as (order & HO & Hperm). destruct (one_finished HO Hf) as [cells Hrun]. eauto.
Qed.

(** ... and in the order given if the thread always takes the first remaining seed *)
Lemma one_thread_in_order l s : (forall t c, In (t, c) l -> c = 0) -> run_schedule mw nearest l (conc_init 1 seeds0 ws0) = Some s -> finished s ->
  exists cells, resample_seeds mw nearest seeds0 ws0 = Some (mem s, cells).
Proof.
  intros Hl Hr Hf.
  assert (G : forall l s1 k, (forall t c, In (t, c) l -> c = 0) -> conc_steps mw nearest k (conc_init 1 seeds0 ws0) s1 -> OneInv s1 seeds0 ->
    run_schedule mw nearest l s1 = Some s -> OneInv s seeds0).
  { clear l Hl Hr. induction l as [|[t c] l IH]; intros s1 k Hl Hk H1 Hr; cbn [run_schedule] in Hr; [injection Hr as <-; exact H1|].
    destruct (thread_step mw nearest s1 t c) as [s2|] eqn:E; [|discriminate].
    destruct (one_step (inv_of Hk) H1 (Permutation_refl _) E) as (o' & A & _ & B).
    rewrite (B (Hl t c (or_introl eq_refl))) in A.
    apply (IH s2 (S k)); auto; [intros t' c' Hc; apply (Hl t' c'); right; exact Hc|]. econstructor; [exact Hk|]. exists t, c. exact E. }
  apply (one_finished (G l _ 0 Hl (steps_refl _ _ _ _) one_init Hr) Hf).
Qed.

End Conc2.

(** *** Exact arithmetic *)
Section Exact.
Context (mw : bool) (nw : nat) (nearest : search RN) (ws0 : weights_state RN) (seeds0 : list nat).

Lemma conc_total nthreads k s :
  valid_search (length ws0) nearest -> shaped mw nw ws0 -> (forall i, In i seeds0 -> i < length ws0) ->
  conc_steps mw nearest k (conc_init nthreads seeds0 ws0) s ->
  Forall (fun t => held_of t = []) (threads s) ->
  forall k, total (mem s) k = total ws0 k /\ (total_abs (mem s) k <= total_abs ws0 k)%R /\
    (total_neg (mem s) k <= total_neg ws0 k)%R /\ forall lo hi, within lo hi k ws0 -> within lo hi k (mem s).
Proof.
  intros H1 H2 H3 H Hq k'. destruct (linearise H1 H2 H3 H Hq) as (cells & Hc & _).
  apply (@resample_many_shrinks mw cells ws0 (mem s)); auto.
  intros E. destruct H2 as (_ & H2 & H4). rewrite (H2 E) in H4. exact H4.
Qed.
End Exact.

(** *** In the vocabulary of [SpecConc] *)
Lemma quiescent_no_locks (N : NumOps) (s : cstate N) : quiescent s -> no_locks s.
Proof. intros H. apply Forall_forall. exact H. Qed.

Lemma done_finished (N : NumOps) (s : cstate N) : done s <-> finished s.
Proof.
  unfold done, finished. rewrite Forall_forall. split; intros [H1 H2]; split; auto.
  - intros x Hx. symmetry. auto.
  - intros x Hx. symmetry. auto.
Qed.

Lemma linearise_spec (N : NumOps) (mw : bool) (nw : nat) (nearest : search N) (ws0 : list (list N)) seeds nthreads k s :
  valid_search (length ws0) nearest -> shaped mw nw ws0 -> (forall i, In i seeds -> i < length ws0) ->
  conc_steps mw nearest k (conc_init nthreads seeds ws0) s -> quiescent s ->
  exists cells : list (Cell N), ofold (cell_resample mw) cells ws0 = Some (mem s) /\
    length cells <= length seeds /\
    forall c, In c cells -> planned_cell nearest seeds (members c).
Proof.
  intros H1 H2 H3 H Hq. destruct (linearise H1 H2 H3 H (quiescent_no_locks Hq)) as (cells & A & B & C).
  exists cells. split; auto. split; auto. intros c Hc. rewrite Forall_forall in B. specialize (B c Hc).
  destruct B as (seed & nb & j & B1 & B2 & B3). exists seed, nb, j. rewrite firstn_map. auto.
Qed.

Lemma conc_total_spec mw nw (nearest : search RN) (ws0 : list (list R)) seeds nthreads k (s : cstate RN) :
  valid_search (length ws0) nearest -> shaped mw nw ws0 -> (forall i, In i seeds -> i < length ws0) ->
  conc_steps mw nearest k (conc_init nthreads seeds (ws0 : weights_state RN)) s -> quiescent s ->
  forall j, total (mem s) j = total ws0 j.
Proof. intros H1 H2 H3 H Hq j. apply (conc_total H1 H2 H3 H (quiescent_no_locks Hq) j). Qed.

Lemma conc_shrinks_spec mw nw (nearest : search RN) (ws0 : list (list R)) seeds nthreads k (s : cstate RN) :
  valid_search (length ws0) nearest -> shaped mw nw ws0 -> (forall i, In i seeds -> i < length ws0) ->
  conc_steps mw nearest k (conc_init nthreads seeds (ws0 : weights_state RN)) s -> quiescent s ->
  forall j, (total_abs (mem s) j <= total_abs ws0 j)%R /\ (total_neg (mem s) j <= total_neg ws0 j)%R /\
    forall lo hi, within lo hi j ws0 -> within lo hi j (mem s).
Proof. intros H1 H2 H3 H Hq j. apply (conc_total H1 H2 H3 H (quiescent_no_locks Hq) j). Qed.

Lemma done_quiescent (N : NumOps) (s : cstate N) : done s -> quiescent s.
Proof. intros [_ H] t Ht. rewrite (H t Ht). reflexivity. Qed.

Lemma no_deadlock_spec (N : NumOps) mw nw (nearest : search N) (ws0 : list (list N)) seeds nthreads k s :
  valid_search (length ws0) nearest -> shaped mw nw ws0 -> (forall i, In i seeds -> i < length ws0) ->
  0 < nthreads -> conc_steps mw nearest k (conc_init nthreads seeds ws0) s ->
  done s \/ exists s', conc_step mw nearest s s'.
Proof.
  intros H1 H2 H3 Hn H. pose proof (threads_length H) as Hl. cbn in Hl. rewrite repeat_length in Hl.
  assert (Hthr : threads s <> []) by (intros E; rewrite E in Hl; cbn in Hl; lia).
  assert (HI := inv_of H1 H2 H3 H).
  assert (Hd : finished s \/ ~ finished s).
  { unfold finished. destruct (pool s); [|right; intros [? _]; discriminate].
    assert (Forall (eq TIdle) (threads s) \/ ~ Forall (eq TIdle) (threads s)) as [|]; [|left; auto|right; tauto].
    clear. induction (threads s) as [|x l IH]; [left; constructor|].
    destruct x; try (right; intros Hx; inversion Hx; discriminate).
    destruct IH as [IH|IH]; [left; constructor; auto|right; intros Hx; inversion Hx; auto]. }
  destruct Hd as [Hd|Hd]; [left; apply done_finished; auto|right].
  eapply progress; eauto.
Qed.

Lemma only_waits_spec (N : NumOps) mw nw (nearest : search N) (ws0 : list (list N)) seeds nthreads k s t x :
  valid_search (length ws0) nearest -> shaped mw nw ws0 -> (forall i, In i seeds -> i < length ws0) ->
  conc_steps mw nearest k (conc_init nthreads seeds ws0) s ->
  nth_error (threads s) t = Some x ->
  (exists choice s', thread_step mw nearest s t choice = Some s') \/
  (x = TIdle /\ pool s = []) \/
  (exists i t' y, wants x i /\ t' <> t /\ nth_error (threads s) t' = Some y /\ In i (held_of y)).
Proof. intros H1 H2 H3 H. apply only_waits with (nw := nw) (ws0 := ws0) (seeds0 := seeds); auto. eapply inv_of; eauto. Qed.

Lemma one_thread_spec (N : NumOps) mw nw (nearest : search N) (ws0 : list (list N)) seeds k s :
  valid_search (length ws0) nearest -> shaped mw nw ws0 -> (forall i, In i seeds -> i < length ws0) ->
  conc_steps mw nearest k (conc_init 1 seeds ws0) s -> done s ->
  exists order cells, Permutation order seeds /\ resample_seeds mw nearest order ws0 = Some (mem s, cells).
Proof. intros H1 H2 H3 H Hd. eapply one_thread; eauto. apply done_finished; auto. Qed.

Lemma complete_valid (N : NumOps) n (nearest : search N) : complete_search n nearest -> valid_search n nearest.
Proof. intros H seed Hs. destruct (H seed Hs) as (nb & A & B & _). eauto. Qed.

Lemma one_thread_no_negative mw nw (nearest : search RN) (ws0 : list (list R)) seeds k (s : cstate RN) :
  complete_search (length ws0) nearest -> shaped mw nw ws0 -> (forall i, In i seeds -> i < length ws0) ->
  (0 <= total ws0 0)%R -> (forall i, i < length ws0 -> (comp ws0 i 0 < 0)%R -> In i seeds) ->
  conc_steps mw nearest k (conc_init 1 seeds (ws0 : weights_state RN)) s -> done s ->
  forall i, i < length ws0 -> (0 <= comp (mem s) i 0)%R.
Proof.
  intros H1 H2 H3 Ht Hneg H Hd i Hi.
  destruct (one_thread_spec (complete_valid H1) H2 H3 H Hd) as (order & cells & Hp & Hr).
  refine (@no_negative_survives mw nw nearest order ws0 (mem s) cells H2 H1 Ht _ Hr i _);
    [|rewrite (resample_seeds_length _ _ _ _ Hr); exact Hi].
  intros j Hj Hjn. eapply Permutation_in; [apply Permutation_sym; exact Hp|]. auto.
Qed.
