(** Schedules of runs in which cells do not overlap. *)
From Verif Require Import Base BaseProofs Num ModelEvent ModelCell ModelResampler ModelConc SpecWeights
  SpecSearch SpecConc SpecSchedule CellProofs RunProofs RunProofs2 ConcProofs ConcProofs2.
Set Implicit Arguments.
Unset Strict Implicit.

Section Apart.
Context (N : NumOps) (mw : bool) (nw : nat) (nearest : search N).
Context (ws0 : weights_state N) (seeds0 : list nat).
Notation n := (length ws0).
Hypothesis Hsearch : valid_search n nearest.
Hypothesis Hshaped : shaped mw nw ws0.
Hypothesis Hnd : NoDup seeds0.
Hypothesis Hpos : seeds_not_positive ws0 seeds0.
Hypothesis Hapart : cells_apart nearest ws0 seeds0.

Notation own_cell := (own_cell nearest ws0).

Lemma own_cell_fun s c c' : own_cell s c -> own_cell s c' -> c = c'.
Proof. intros (nb & E & F) (nb' & E' & F'). assert (nb = nb') by congruence. subst. congruence. Qed.

Lemma own_cell_ex seed : In seed seeds0 -> exists C, own_cell seed C.
Proof.
  intros Hs. assert (Hlt : seed < n) by (destruct (Hpos Hs) as (w & ws' & E & _); apply nth_error_Some; congruence).
  destruct (Hsearch Hlt) as (nbrs & En & _ & Hr). destruct (@cell_new_total N ws0 seed nbrs) as [C HC]; auto.
  - intros i Hi. apply Hr in Hi. tauto.
  - destruct Hshaped as (H0 & _ & H1). unfold uniform in H1. eapply Forall_impl; [|exact H1]. cbn. intros a Ha ->. cbn in Ha. lia.
  - exists C, nbrs. auto.
Qed.

Lemma grow_incl (ws : weights_state N) nbrs c C : cell_grow ws nbrs c = Some C -> forall i, In i (members c) -> In i (members C).
Proof.
  revert c. induction nbrs as [|[j d] rest IH]; intros c H i Hi; cbn in H; [injection H as <-; auto|].
  destruct (weight_at ws j) as [w|]; [|discriminate].
  assert (Hi' : In i (members c ++ [j])) by (apply in_or_app; auto).
  destruct (nleb n0 (nadd (weight_sum c) w)).
  - injection H as <-. exact Hi'.
  - eapply IH; eauto.
Qed.

Lemma own_cell_seed seed C : own_cell seed C -> In seed (members C).
Proof.
  intros (nbrs & _ & E). unfold cell_new in E. destruct (weight_at ws0 seed) as [w|]; [|discriminate].
  eapply grow_incl; [exact E|]. left. reflexivity.
Qed.

Definition fresh (m : weights_state N) (seed : nat) : Prop :=
  forall C i, own_cell seed C -> In i (members C) -> nth_error m i = nth_error ws0 i.
Definition finished_cell (m : weights_state N) (seed : nat) : Prop :=
  forall C avg i, own_cell seed C -> cell_average mw ws0 (isort Nat.leb (members C)) = Some avg -> In i (members C) ->
  nth_error m i = Some avg.

Inductive tok (m : weights_state N) : tstate N -> option nat -> Prop :=
| k_idle : tok m TIdle None
| k_check seed : fresh m seed -> tok m (TCheck seed) (Some seed)
| k_start seed : fresh m seed -> tok m (TStart seed) (Some seed)
| k_grow seed C c nbrs : own_cell seed C -> cell_grow ws0 nbrs c = Some C -> fresh m seed -> tok m (TGrow c nbrs) (Some seed)
| k_lock seed C held todo : own_cell seed C -> isort Nat.leb (members C) = held ++ todo -> fresh m seed -> tok m (TLock held todo) (Some seed)
| k_write seed C avg tw held : own_cell seed C -> cell_average mw ws0 (isort Nat.leb (members C)) = Some avg ->
    (forall i, In i tw -> In i (members C)) ->
    (forall i, In i (members C) -> ~ In i tw -> nth_error m i = Some avg) ->
    tok m (TWrite avg tw held) (Some seed).

Record AInv (s : cstate N) (own : nat -> option nat) : Prop := {
  a_len : length (mem s) = n;
  a_pool : NoDup (pool s);
  a_incl : forall x, In x (pool s) -> In x seeds0;
  a_tok : forall j x, nth_error (threads s) j = Some x -> tok (mem s) x (own j);
  a_own : forall j seed, own j = Some seed -> In seed seeds0 /\ ~ In seed (pool s) /\ j < length (threads s);
  a_one : forall j j' seed, own j = Some seed -> own j' = Some seed -> j = j';
  a_all : forall seed, In seed seeds0 -> In seed (pool s) \/ (exists j, own j = Some seed) \/ finished_cell (mem s) seed;
  a_fresh : forall seed, In seed (pool s) -> fresh (mem s) seed;
  a_out : forall i, (forall seed C, In seed seeds0 -> own_cell seed C -> ~ In i (members C)) -> nth_error (mem s) i = nth_error ws0 i
}.

(** Memory changes only in the cell of [seed]. *)
Definition changes (m m' : weights_state N) (seed : nat) : Prop :=
  forall i, nth_error m' i = nth_error m i \/ exists C, own_cell seed C /\ In i (members C).

Lemma changes_refl m seed : changes m m seed. Proof. intros i. auto. Qed.

Lemma fresh_frame m m' seed seed' : In seed seeds0 -> In seed' seeds0 -> seed <> seed' -> changes m m' seed -> fresh m seed' -> fresh m' seed'.
Proof.
  intros H1 H2 Hne Hc Hf C i HC Hi. destruct (Hc i) as [E|(C' & HC' & Hi')].
  - rewrite E. eapply Hf; eauto.
  - exfalso. exact (@Hapart seed seed' C' C i H1 H2 Hne HC' HC Hi' Hi).
Qed.
Lemma finished_frame m m' seed seed' : In seed seeds0 -> In seed' seeds0 -> seed <> seed' -> changes m m' seed -> finished_cell m seed' -> finished_cell m' seed'.
Proof.
  intros H1 H2 Hne Hc Hf C avg i HC Ha Hi. destruct (Hc i) as [E|(C' & HC' & Hi')].
  - rewrite E. eapply Hf; eauto.
  - exfalso. exact (@Hapart seed seed' C' C i H1 H2 Hne HC' HC Hi' Hi).
Qed.
Lemma tok_frame m m' seed x o : In seed seeds0 -> (forall s', o = Some s' -> In s' seeds0 /\ seed <> s') -> changes m m' seed -> tok m x o -> tok m' x o.
Proof.
  intros H1 Ho Hc Ht.
  destruct Ht as [|seed' Hf|seed' Hf|seed' C c nbrs HC Hg Hf|seed' C held todo HC Hso Hf|seed' C avg tw held HC Ha Hi Hm];
    [constructor| | | | |]; destruct (Ho _ eq_refl) as [H2 Hne]; try solve [pose proof (@fresh_frame m m' seed seed' H1 H2 Hne Hc Hf); econstructor; eauto].
  econstructor; eauto. intros i Hin Hni. destruct (Hc i) as [E|(C' & HC' & Hi')].
  - rewrite E. auto.
  - exfalso. exact (@Hapart seed seed' C' C i H1 H2 Hne HC' HC Hi' Hin).
Qed.

Definition upd (own : nat -> option nat) t o : nat -> option nat := fun j => if Nat.eqb j t then o else own j.

(** A thread goes on with its seed. *)
Lemma a_continue s s' own t old new seed :
  AInv s own -> nth_error (threads s) t = Some old -> own t = Some seed ->
  set_nth t new (threads s) = Some (threads s') -> pool s' = pool s -> length (mem s') = length (mem s) ->
  changes (mem s) (mem s') seed -> tok (mem s') new (Some seed) -> AInv s' own.
Proof.
  intros [A1 A2 A3 A4 A5 A6 A7 A9 A8] Ht Ho Hset Hp Hl Hc Hn.
  apply set_nth_spec in Hset. destruct Hset as (_ & Hlen & Hth). destruct (A5 _ _ Ho) as (Hin & Hnp & Hlt).
  constructor; try rewrite Hp; auto; try congruence.
  - intros j x Hj. rewrite Hth in Hj. destruct (Nat.eqb_spec j t) as [->|Hne].
    + injection Hj as <-. rewrite Ho. exact Hn.
    + eapply tok_frame; [exact Hin| |exact Hc|eauto]. intros s1 E. split; [apply (A5 _ _ E)|].
      intros ->. apply Hne. eapply A6; eauto.
  - intros j s1 E. destruct (A5 _ _ E) as (? & ? & ?). rewrite Hlen. auto.
  - intros s1 H1. destruct (Nat.eq_dec seed s1) as [<-|Hne]; [right; left; eauto|].
    destruct (A7 s1 H1) as [?|[?|?]]; [left|right; left|right; right]; auto.
    eapply finished_frame; [exact Hin|exact H1|exact Hne|exact Hc|auto].
  - intros s1 H1. assert (Hne : seed <> s1) by (intros ->; auto). exact (@fresh_frame _ _ seed s1 Hin (A3 _ H1) Hne Hc (A9 _ H1)).
  - intros i Hi. destruct (Hc i) as [E|(C & HC & HiC)]; [rewrite E; auto|]. exfalso. exact (Hi seed C Hin HC HiC).
Qed.

(** A thread takes a seed. *)
Lemma a_take s s' own t k seed :
  AInv s own -> nth_error (threads s) t = Some TIdle -> nth_error (pool s) k = Some seed ->
  set_nth t (TCheck seed) (threads s) = Some (threads s') -> pool s' = remove_nth k (pool s) -> mem s' = mem s ->
  AInv s' (upd own t (Some seed)).
Proof.
  intros [A1 A2 A3 A4 A5 A6 A7 A9 A8] Ht Hk Hset Hp Hm.
  apply set_nth_spec in Hset. destruct Hset as (Hlt & Hlen & Hth).
  pose proof (remove_nth_perm Hk) as Hperm. rewrite <- Hp in Hperm.
  assert (Hnd' : NoDup (seed :: pool s')) by (eapply Permutation_NoDup; [apply Permutation_sym|]; eauto).
  assert (Hin : In seed (pool s)) by (eapply nth_error_In; eauto).
  assert (Hnot : forall j, own j <> Some seed) by (intros j E; apply A5 in E; tauto).
  assert (Hsub : forall x, In x (pool s') -> In x (pool s)) by (intros x Hx; eapply Permutation_in; [exact Hperm|right; auto]).
  pose proof (A4 _ _ Ht) as Hidle. inversion Hidle as [Ho| | | | |]. 
  constructor; try rewrite Hm; auto.
  - inversion Hnd'; auto.
  - intros j x Hj. rewrite Hth in Hj. unfold upd. destruct (Nat.eqb_spec j t) as [->|Hne]; [|auto].
    injection Hj as <-. constructor. auto.
  - intros j s1. unfold upd. rewrite Hlen. destruct (Nat.eqb_spec j t) as [->|Hne].
    + intros E. injection E as <-. split; auto. inversion Hnd'; auto.
    + intros E. destruct (A5 _ _ E) as (? & Hx & ?). split; [auto|]. split; [intros Hy; apply Hx; auto|auto].
  - intros j j' s1. unfold upd. destruct (Nat.eqb_spec j t) as [->|Hj], (Nat.eqb_spec j' t) as [->|Hj']; auto.
    + intros E E'. exfalso. injection E as ->. exact (Hnot _ E').
    + intros E E'. exfalso. injection E' as ->. exact (Hnot _ E).
    + exact (A6 j j' s1).
  - intros s1 H1. destruct (A7 s1 H1) as [Hi|[[j Hj]|?]]; auto.
    + apply (Permutation_in _ (Permutation_sym Hperm)) in Hi. destruct Hi as [<-|Hi]; auto.
      right. left. exists t. unfold upd. rewrite Nat.eqb_refl. auto.
    + right. left. exists j. unfold upd. destruct (Nat.eqb_spec j t) as [->|]; auto. congruence.
Qed.

(** A thread has finished its cell. *)
Lemma a_finish s s' own t old seed :
  AInv s own -> nth_error (threads s) t = Some old -> own t = Some seed -> finished_cell (mem s) seed ->
  set_nth t TIdle (threads s) = Some (threads s') -> pool s' = pool s -> mem s' = mem s ->
  AInv s' (upd own t None).
Proof.
  intros [A1 A2 A3 A4 A5 A6 A7 A9 A8] Ht Ho Hf Hset Hp Hm.
  apply set_nth_spec in Hset. destruct Hset as (Hlt & Hlen & Hth).
  constructor; try rewrite Hm; try rewrite Hp; auto.
  - intros j x Hj. rewrite Hth in Hj. unfold upd. destruct (Nat.eqb_spec j t) as [->|Hne]; [|auto].
    injection Hj as <-. constructor.
  - intros j s1. unfold upd. rewrite Hlen. destruct (Nat.eqb_spec j t) as [->|Hne]; [discriminate|]. apply A5.
  - intros j j' s1. unfold upd. destruct (Nat.eqb_spec j t) as [->|Hj], (Nat.eqb_spec j' t) as [->|Hj']; try discriminate. exact (A6 j j' s1).
  - intros s1 H1. destruct (A7 s1 H1) as [Hi|[[j Hj]|?]]; auto.
    destruct (Nat.eq_dec j t) as [->|Hne].
    + right. right. assert (s1 = seed) as -> by congruence. exact Hf.
    + right. left. exists j. unfold upd. destruct (Nat.eqb_spec j t); [contradiction|auto].
Qed.

Lemma a_step s s' own : AInv s own -> conc_step mw nearest s s' -> exists own', AInv s' own'.
Proof.
  intros HI (t & k & H). unfold thread_step in H.
  destruct (nth_error (threads s) t) as [x|] eqn:Et; [|discriminate].
  pose proof (a_tok HI Et) as Hok. remember (own t) as o eqn:Eo. symmetry in Eo.
  assert (Hread : forall seed C i w, fresh (mem s) seed -> own_cell seed C -> In i (members C) -> read_weight s i = Some w -> weight_at ws0 i = Some w).
  { intros seed C i w Hf HC Hi E. unfold read_weight in E. destruct (is_locked s i); [discriminate|].
    unfold weight_at in *. rewrite (Hf C i HC Hi) in E. exact E. }
  destruct Hok as [|seed Hf|seed Hf|seed C c nbrs HC Hg Hf|seed C held todo HC Hso Hf|seed C avg tw held HC Ha Hi Hm].
  - destruct (nth_error (pool s) k) as [seed|] eqn:Ep; [|discriminate].
    destruct (length (mem s) <=? seed); [discriminate|].
    destruct (set_nth t (TCheck seed) (threads s)) as [l|] eqn:Es; [|discriminate]. injection H as <-.
    exists (upd own t (Some seed)). eapply a_take; eauto.
  - destruct (a_own HI Eo) as (Hin & _ & _).
    destruct (read_weight s seed) as [w|] eqn:Er; [|discriminate].
    destruct (own_cell_ex Hin) as [C HC].
    pose proof (Hread _ _ _ _ Hf HC (own_cell_seed HC) Er) as Hw.
    destruct (Hpos Hin) as (w' & ws' & Ew & Hlt). unfold weight_at in Hw. rewrite Ew in Hw. cbn in Hw. injection Hw as ->.
    rewrite Hlt in H.
    destruct (set_nth t (TStart seed) (threads s)) as [l|] eqn:Es; [|discriminate]. injection H as <-.
    exists own. eapply a_continue; eauto using changes_refl. constructor; auto.
  - destruct (a_own HI Eo) as (Hin & _ & _).
    destruct (read_weight s seed) as [w|] eqn:Er; [|discriminate].
    destruct (own_cell_ex Hin) as [C HC].
    pose proof (Hread _ _ _ _ Hf HC (own_cell_seed HC) Er) as Hw.
    pose proof HC as (nbrs & En & EC). rewrite En in H.
    destruct (set_nth t (TGrow (mkCell [seed] n0 w) nbrs) (threads s)) as [l|] eqn:Es; [|discriminate]. injection H as <-.
    exists own. eapply a_continue; eauto using changes_refl. eapply k_grow; eauto.
    unfold cell_new in EC. rewrite Hw in EC. exact EC.
  - destruct nbrs as [|[i d] rest].
    + destruct (set_nth t (TLock [] (isort Nat.leb (members c))) (threads s)) as [l|] eqn:Es; [|discriminate]. injection H as <-.
      exists own. eapply a_continue; eauto using changes_refl. eapply k_lock; eauto. cbn in Hg. injection Hg as ->. reflexivity.
    + destruct (read_weight s i) as [w|] eqn:Er; [|discriminate]. cbv zeta in H.
      pose proof Hg as Hg'. cbn in Hg. destruct (weight_at ws0 i) as [w'|] eqn:Ew; [|discriminate].
      assert (HiC : In i (members C)).
      { destruct (nleb n0 (nadd (weight_sum c) w')).
        - injection Hg as <-. cbn. apply in_or_app. right. left. auto.
        - eapply grow_incl; [exact Hg|]. cbn. apply in_or_app. right. left. auto. }
      pose proof (Hread _ _ _ _ Hf HC HiC Er) as Hw. assert (w' = w) as -> by congruence.
      set (c' := mkCell (members c ++ [i]) d (nadd (weight_sum c) w)) in *.
      destruct (nleb n0 (nadd (weight_sum c) w)).
      * destruct (set_nth t (TLock [] (isort Nat.leb (members c'))) (threads s)) as [l|] eqn:Es; [|discriminate]. injection H as <-.
        exists own. eapply a_continue; eauto using changes_refl. eapply k_lock; eauto. injection Hg as <-. reflexivity.
      * destruct (set_nth t (TGrow c' rest) (threads s)) as [l|] eqn:Es; [|discriminate]. injection H as <-.
        exists own. eapply a_continue; eauto using changes_refl. eapply k_grow; eauto.
  - destruct todo as [|i todo].
    + destruct (cell_average mw (mem s) held) as [avg|] eqn:Ea; [|discriminate].
      destruct (set_nth t (TWrite avg (write_order mw held) held) (threads s)) as [l|] eqn:Es; [|discriminate]. injection H as <-.
      rewrite app_nil_r in Hso. exists own. eapply a_continue; eauto using changes_refl.
      assert (Hmem : forall i, In i held <-> In i (members C)).
      { intros i. rewrite <- Hso. split; apply Permutation_in; [apply Permutation_sym|]; apply isort_perm. }
      assert (Hwr : forall i, In i (write_order mw held) <-> In i held).
      { intros i. split; apply Permutation_in; [apply Permutation_sym|]; apply write_order_perm. }
      eapply k_write; eauto.
      * rewrite Hso, <- Ea. apply average_ext. intros i Hi. symmetry. eapply Hf; eauto. apply Hmem. exact Hi.
      * intros i Hi. apply Hmem, Hwr. exact Hi.
      * intros i Hi Hni. exfalso. apply Hni, Hwr, Hmem. exact Hi.
    + destruct (is_locked s i); [discriminate|].
      destruct (set_nth t (TLock (held ++ [i]) todo) (threads s)) as [l|] eqn:Es; [|discriminate]. injection H as <-.
      exists own. eapply a_continue; eauto using changes_refl. eapply k_lock; eauto. rewrite <- app_assoc. exact Hso.
  - destruct tw as [|i rest].
    + destruct held as [|j held].
      * destruct (set_nth t TIdle (threads s)) as [l|] eqn:Es; [|discriminate]. injection H as <-.
        exists (upd own t None). eapply a_finish; eauto.
        intros C' avg' i HC' Ha' Hi'. assert (C' = C) as -> by (eapply own_cell_fun; eauto).
        assert (avg' = avg) as -> by congruence. auto.
      * destruct (set_nth t (TWrite avg [] held) (threads s)) as [l|] eqn:Es; [|discriminate]. injection H as <-.
        exists own. eapply a_continue; eauto using changes_refl. eapply k_write; eauto.
    + destruct (write_weights mw (mem s) i avg) as [m|] eqn:Ew; [|discriminate].
      destruct (set_nth t (TWrite avg rest (if mw then held else rest)) (threads s)) as [l|] eqn:Es; [|discriminate]. injection H as <-.
      apply write_weights_set in Ew. apply set_nth_spec in Ew. destruct Ew as (Hil & Hlm & Hset).
      exists own. eapply a_continue; eauto.
      * cbn [mem]. intros j. rewrite Hset. destruct (Nat.eqb_spec j i) as [->|]; [right|left; auto]. exists C. split; auto. apply Hi. left. auto.
      * cbn [mem]. eapply k_write; eauto.
        -- intros j Hj. apply Hi. right. auto.
        -- intros j Hj Hnj. rewrite Hset. destruct (Nat.eqb_spec j i) as [->|Hne]; auto. apply Hm; auto. intros [<-|Hx]; auto.
Qed.

Lemma a_init nthreads : AInv (conc_init nthreads seeds0 ws0) (fun _ => None).
Proof.
  constructor; cbn; auto; try discriminate.
  - intros j x Hj. apply nth_error_In, repeat_spec in Hj. subst. constructor.
  - intros seed Hs C i _ _. reflexivity.
Qed.

Lemma a_steps nthreads k s : conc_steps mw nearest k (conc_init nthreads seeds0 ws0) s -> exists own, AInv s own.
Proof.
  intros H. remember (conc_init nthreads seeds0 ws0) as s0 eqn:E.
  induction H as [s1|k s1 s2 s3 H IH Hst]; subst; [eexists; apply a_init|].
  destruct (IH eq_refl) as [own HI]. eapply a_step; eauto.
Qed.

Lemma a_done nthreads k s : conc_steps mw nearest k (conc_init nthreads seeds0 ws0) s -> done s ->
  length (mem s) = n /\ (forall seed, In seed seeds0 -> finished_cell (mem s) seed) /\
  forall i, (forall seed C, In seed seeds0 -> own_cell seed C -> ~ In i (members C)) -> nth_error (mem s) i = nth_error ws0 i.
Proof.
  intros H [Hp Hd]. destruct (a_steps H) as [own HI]. split; [apply (a_len HI)|]. split; [|apply (a_out HI)].
  intros seed Hs. destruct (a_all HI Hs) as [Hi|[[j Hj]|Hf]]; auto.
  - rewrite Hp in Hi. destruct Hi.
  - exfalso. destruct (a_own HI Hj) as (_ & _ & Hlt). apply nth_error_Some in Hlt.
    destruct (nth_error (threads s) j) as [x|] eqn:Ex; [|congruence].
    pose proof (Hd _ (nth_error_In _ _ Ex)). subst. pose proof (a_tok HI Ex) as Ht. rewrite Hj in Ht. inversion Ht.
Qed.

(** *** The sequential loop *)
Lemma grow_ext (V : weights_state N) nbrs c C : cell_grow ws0 nbrs c = Some C ->
  (forall i, In i (members C) -> nth_error V i = nth_error ws0 i) -> cell_grow V nbrs c = Some C.
Proof.
  revert c. induction nbrs as [|[i d] rest IH]; intros c H Hv; cbn in *; auto.
  destruct (weight_at ws0 i) as [w|] eqn:Ew; [|discriminate].
  assert (HiC : In i (members C)).
  { destruct (nleb n0 (nadd (weight_sum c) w)).
    - injection H as <-. cbn. apply in_or_app. right. left. auto.
    - eapply grow_incl; [exact H|]. cbn. apply in_or_app. right. left. auto. }
  assert (E : weight_at V i = Some w) by (unfold weight_at in *; rewrite Hv by auto; exact Ew).
  rewrite E. destruct (nleb n0 (nadd (weight_sum c) w)); auto.
Qed.

Lemma own_cell_ok seed C : In seed seeds0 -> own_cell seed C ->
  NoDup (members C) /\ (forall i, In i (members C) -> i < n) /\ members C <> [].
Proof.
  intros Hs (nbrs & En & EC).
  assert (Hlt : seed < n) by (destruct (Hpos Hs) as (w & ws' & E & _); apply nth_error_Some; congruence).
  destruct (Hsearch Hlt) as (nb & En' & Hnb). assert (nb = nbrs) as -> by congruence.
  destruct (cell_members Hlt Hnb EC) as (A & B & _ & D). auto.
Qed.

Lemma own_average seed C : In seed seeds0 -> own_cell seed C ->
  exists avg V, cell_resample mw ws0 C = Some V /\ cell_average mw ws0 (isort Nat.leb (members C)) = Some avg /\
  forall i, nth_error V i = if in_dec Nat.eq_dec i (members C) then Some avg else nth_error ws0 i.
Proof.
  intros Hs HC. destruct (own_cell_ok Hs HC) as (A & B & D).
  destruct (@resample_some N mw nw ws0 C Hshaped A D B) as [V HV].
  destruct (resample_average HV) as (avg & Ha & Hf). exists avg, V. auto.
Qed.

Lemma seq_run order : forall fin V cells, Permutation (fin ++ order) seeds0 -> shaped mw nw V -> length V = n ->
  (forall seed, In seed fin -> finished_cell V seed) -> (forall seed, In seed order -> fresh V seed) ->
  (forall i, (forall seed C, In seed seeds0 -> own_cell seed C -> ~ In i (members C)) -> nth_error V i = nth_error ws0 i) ->
  exists V' cells', ofold (seed_step mw nearest) order (V, cells) = Some (V', cells') /\ length V' = n /\
  (forall seed, In seed seeds0 -> finished_cell V' seed) /\
  (forall i, (forall seed C, In seed seeds0 -> own_cell seed C -> ~ In i (members C)) -> nth_error V' i = nth_error ws0 i).
Proof.
  induction order as [|seed order IH]; intros fin V cells Hp Hsh Hl Hfin Hfr Hout.
  - exists V, cells. cbn. split; auto. split; auto. split; auto. intros seed Hs. apply Hfin.
    rewrite app_nil_r in Hp. eapply Permutation_in; [apply Permutation_sym; exact Hp|exact Hs].
  - assert (Hall : forall x, In x (fin ++ seed :: order) -> In x seeds0) by (intros x; apply Permutation_in; auto).
    assert (Hs : In seed seeds0) by (apply Hall, in_or_app; right; left; auto).
    assert (Hnd' : NoDup (fin ++ seed :: order)) by (eapply Permutation_NoDup; [apply Permutation_sym|]; eauto).
    destruct (own_cell_ex Hs) as [C HC]. destruct (own_cell_ok Hs HC) as (A & B & D).
    assert (Hf : fresh V seed) by (apply Hfr; left; auto).
    destruct (Hpos Hs) as (w & ws' & Ew & Hlt).
    assert (EV : nth_error V seed = Some (w :: ws')) by (rewrite (Hf C seed HC (own_cell_seed HC)); exact Ew).
    pose proof HC as (nbrs & En & EC).
    assert (EC' : cell_new V seed nbrs = Some C).
    { unfold cell_new, weight_at in *. rewrite EV. rewrite Ew in EC. cbn in *. eapply grow_ext; [exact EC|]. intros i Hi. eapply Hf; eauto. }
    destruct (@resample_some N mw nw V C Hsh A D) as [V1 HV1]; [rewrite Hl; exact B|].
    destruct (resample_average HV1) as (avg & Ha & Hf1).
    assert (Ha0 : cell_average mw ws0 (isort Nat.leb (members C)) = Some avg).
    { rewrite <- Ha. apply average_ext. intros i Hi. symmetry. eapply Hf; eauto.
      eapply Permutation_in; [apply Permutation_sym, isort_perm|exact Hi]. }
    assert (Hch : changes V V1 seed).
    { intros i. rewrite Hf1. destruct (in_dec Nat.eq_dec i (members C)); eauto. }
    pose proof (resample_frame _ _ _ HV1) as (_ & _ & Hl1 & _).
    destruct (IH (fin ++ [seed]) V1 (cells ++ [C])) as (V' & cells' & E & Hrest).
    + rewrite <- app_assoc. exact Hp.
    + eapply resample_shaped; eauto.
    + congruence.
    + intros s1 H1. apply in_app_or in H1. destruct H1 as [H1|[<-|[]]].
      * assert (Hne : seed <> s1).
        { intros ->. apply NoDup_remove_2 in Hnd'. apply Hnd', in_or_app. auto. }
        apply (@finished_frame V V1 seed s1); auto. apply Hall, in_or_app. auto.
      * intros C' avg' i HC' Ha' Hi. assert (C' = C) as -> by (eapply own_cell_fun; eauto).
        assert (avg' = avg) as -> by congruence. rewrite Hf1. destruct (in_dec Nat.eq_dec i (members C)); [auto|contradiction].
    + intros s1 H1. assert (Hne : seed <> s1).
      { intros ->. apply NoDup_remove_2 in Hnd'. apply Hnd', in_or_app. auto. }
      apply (@fresh_frame V V1 seed s1); auto; [|apply Hfr; right; auto]. apply Hall, in_or_app. right. right. auto.
    + intros i Hi. rewrite Hf1. destruct (in_dec Nat.eq_dec i (members C)) as [Hx|]; auto. exfalso. exact (Hi seed C Hs HC Hx).
    + exists V', cells'. split; auto. cbn [ofold]. unfold seed_step. rewrite Hl.
      assert (Hsn : seed < n) by (rewrite <- Hl; apply nth_error_Some; congruence).
      destruct (Nat.leb_spec n seed); [lia|]. unfold weight_at. rewrite EV. cbn. rewrite Hlt, En, EC', HV1. exact E.
Qed.

Lemma same_memory (V V' : weights_state N) :
  (forall seed, In seed seeds0 -> finished_cell V seed) ->
  (forall i, (forall seed C, In seed seeds0 -> own_cell seed C -> ~ In i (members C)) -> nth_error V i = nth_error ws0 i) ->
  (forall seed, In seed seeds0 -> finished_cell V' seed) ->
  (forall i, (forall seed C, In seed seeds0 -> own_cell seed C -> ~ In i (members C)) -> nth_error V' i = nth_error ws0 i) ->
  V = V'.
Proof.
  intros H1 H2 H1' H2'. apply nth_error_ext. intros i.
  set (cellm := fun seed => match nearest seed with Some nb => match cell_new ws0 seed nb with Some C => members C | None => [] end | None => [] end).
  assert (Hc : forall seed C, own_cell seed C -> cellm seed = members C).
  { intros seed C (nb & En & EC). unfold cellm. rewrite En, EC. reflexivity. }
  destruct (in_dec Nat.eq_dec i (flat_map cellm seeds0)) as [Hi|Hi].
  - apply in_flat_map in Hi. destruct Hi as (seed & Hs & Hi). destruct (own_cell_ex Hs) as [C HC].
    rewrite (Hc _ _ HC) in Hi. destruct (own_average Hs HC) as (avg & _ & _ & Ha & _).
    rewrite (H1 seed Hs C avg i HC Ha Hi), (H1' seed Hs C avg i HC Ha Hi). reflexivity.
  - assert (Hno : forall seed C, In seed seeds0 -> own_cell seed C -> ~ In i (members C)).
    { intros seed C Hs HC Hx. apply Hi, in_flat_map. exists seed. rewrite (Hc _ _ HC). auto. }
    rewrite (H2 i Hno), (H2' i Hno). reflexivity.
Qed.

Lemma apart_sequential nthreads k s order : conc_steps mw nearest k (conc_init nthreads seeds0 ws0) s -> done s ->
  Permutation order seeds0 -> exists cells, resample_seeds mw nearest order ws0 = Some (mem s, cells).
Proof.
  intros H Hd Hp. destruct (a_done H Hd) as (_ & H1 & H2).
  destruct (@seq_run order [] ws0 []) as (V & cells & E & _ & H3 & H4); auto.
  - intros ? [].
  - intros seed _ C i _ _. reflexivity.
  - exists cells. unfold resample_seeds. rewrite (same_memory H1 H2 H3 H4). exact E.
Qed.

Lemma apart_cells nthreads k s : conc_steps mw nearest k (conc_init nthreads seeds0 ws0) s -> done s ->
  (forall seed, In seed seeds0 -> exists c V, own_cell seed c /\ cell_resample mw ws0 c = Some V /\
     forall i, In i (members c) -> nth_error (mem s) i = nth_error V i) /\
  (forall i, (forall seed c, In seed seeds0 -> own_cell seed c -> ~ In i (members c)) -> nth_error (mem s) i = nth_error ws0 i).
Proof.
  intros H Hd. destruct (a_done H Hd) as (_ & H1 & H2). split; [|exact H2].
  intros seed Hs. destruct (own_cell_ex Hs) as [C HC]. destruct (own_average Hs HC) as (avg & V & HV & Ha & Hf).
  exists C, V. split; [exact HC|]. split; [exact HV|]. intros i Hi. rewrite Hf. destruct (in_dec Nat.eq_dec i (members C)); [|contradiction].
  exact (H1 seed Hs C avg i HC Ha Hi).
Qed.

End Apart.
