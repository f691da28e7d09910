(** Lemmas about [ModelConc]: an invariant, linearisation, progress, termination. *)
From Verif Require Import Base BaseProofs Num ModelEvent ModelCell ModelResampler ModelConc SpecWeights
  SpecSearch CellProofs RunProofs RunProofs2.
Set Implicit Arguments.
Unset Strict Implicit.

Section Conc.
Context (N : NumOps) (mw : bool) (nw : nat) (nearest : search N).
Context (ws0 : weights_state N) (seeds0 : list nat).
Notation n := (length ws0).
Hypothesis Hsearch : valid_search n nearest.
Hypothesis Hshaped : shaped mw nw ws0.
Hypothesis Hseeds : forall s, In s seeds0 -> s < n.

Implicit Types (s : cstate N) (V : weights_state N).

(** *** Means *)
Lemma resample_average V (c : Cell N) V' :
  cell_resample mw V c = Some V' ->
  exists avg, cell_average mw V (isort Nat.leb (members c)) = Some avg /\
    forall i, nth_error V' i = if in_dec Nat.eq_dec i (members c) then Some avg else nth_error V i.
Proof.
  clear Hshaped.
  set (ms := isort Nat.leb (members c)).
  assert (Hp : Permutation (members c) ms) by apply isort_perm.
  assert (Hin : forall i, In i (members c) <-> In i ms).
  { intros i. split; apply Permutation_in; auto using Permutation_sym. }
  unfold cell_resample, cell_average. destruct mw.
  - unfold resample_multi. fold ms.
    destruct (nodupb ms) eqn:End; [|discriminate].
    destruct ms as [|first rest] eqn:Ems; [discriminate|].
    destruct (get_weights V first) as [w0|] eqn:E0; [|discriminate].
    destruct (omap (get_weights V) rest) as [wrest|] eqn:E1; [|discriminate].
    destruct (ofold weights_add wrest w0) as [tot|] eqn:E2; [|discriminate].
    cbv zeta. set (avg := map _ tot). destruct (copy_all V rest avg) as [ws1|] eqn:E3; [|discriminate].
    intros E4. apply copy_all_write in E3.
    assert (E5 : write_all V (rest ++ [first]) avg = Some V').
    { clearbody avg. clear - E3 E4. revert V E3. induction rest as [|i t IH]; intros ws E3; cbn in *.
      - injection E3 as ->. rewrite E4. reflexivity.
      - destruct (set_nth i avg ws); [|discriminate]. auto. }
    apply write_all_spec in E5. destruct E5 as (H1 & H2 & H3).
    assert (Hin' : forall i, In i (members c) <-> In i (rest ++ [first])).
    { intros i. rewrite Hin, in_app_iff. cbn. tauto. }
    exists avg. split; auto. intros i. rewrite H3.
    destruct (in_dec Nat.eq_dec i (rest ++ [first])), (in_dec Nat.eq_dec i (members c)); auto;
      exfalso; rewrite Hin' in *; tauto.
  - unfold resample_single. fold ms.
    destruct (nodupb ms) eqn:End; [|discriminate].
    destruct (omap (weight_at V) ms) as [wts|] eqn:E1; [|discriminate].
    intros E5. apply write_all_spec in E5. destruct E5 as (H1 & H2 & H3).
    eexists. split; [reflexivity|]. intros i. rewrite H3.
    destruct (in_dec Nat.eq_dec i ms), (in_dec Nat.eq_dec i (members c)); auto;
      exfalso; rewrite Hin in *; tauto.
Qed.

Lemma omap_ext_in A B (f g : A -> option B) l : (forall x, In x l -> f x = g x) -> omap f l = omap g l.
Proof.
  induction l as [|a t IH]; intros H; cbn; auto. rewrite (H a) by (left; auto).
  rewrite IH by (intros; apply H; right; auto). reflexivity.
Qed.

Lemma average_ext V V' ms : (forall i, In i ms -> nth_error V i = nth_error V' i) ->
  cell_average mw V ms = cell_average mw V' ms.
Proof.
  clear Hshaped.
  intros H. unfold cell_average. destruct mw.
  - destruct ms as [|a t]; auto. unfold get_weights. rewrite (H a) by (left; auto).
    rewrite (@omap_ext_in _ _ (fun i => nth_error V i) (fun i => nth_error V' i) t); auto.
    intros x Hx. apply H. right; auto.
  - rewrite (@omap_ext_in _ _ (weight_at V) (weight_at V') ms); auto.
    intros x Hx. unfold weight_at. rewrite H; auto.
Qed.

Lemma sorted_isort l : StronglySorted lt l -> isort Nat.leb l = l.
Proof.
  intros H. assert (Ho : ordered Nat.leb l).
  { unfold ordered. induction H as [|a t Ht IH Ha]; constructor; auto.
    eapply Forall_impl; [|exact Ha]. cbn. intros b Hb. apply Nat.leb_le. lia. }
  symmetry. apply (@ordered_perm_unique _ Nat.leb); auto using isort_perm.
  - intros x y _ _ H1 H2. apply Nat.leb_le in H1, H2. lia.
  - apply isort_ok. split.
    + intros x y _ _. rewrite !Nat.leb_le. lia.
    + intros x y z _ _ _. rewrite !Nat.leb_le. lia.
Qed.

Lemma isort_lt l : NoDup l -> StronglySorted lt (isort Nat.leb l).
Proof.
  intros H. assert (Ho : ordered Nat.leb (isort Nat.leb l)).
  { apply isort_ok. split.
    + intros x y _ _. rewrite !Nat.leb_le. lia.
    + intros x y z _ _ _. rewrite !Nat.leb_le. lia. }
  assert (Hn : NoDup (isort Nat.leb l)) by (eapply Permutation_NoDup; [apply isort_perm|auto]).
  revert Ho Hn. generalize (isort Nat.leb l). unfold ordered. induction 1 as [|a t Ht IH Ha]; intros Hn; constructor.
  - apply IH. inversion Hn; auto.
  - rewrite Forall_forall in *. intros b Hb. specialize (Ha b Hb). apply Nat.leb_le in Ha.
    assert (a <> b). { intros ->. inversion Hn; auto. } lia.
Qed.

Lemma sorted_lt_NoDup l : StronglySorted lt l -> NoDup l.
Proof.
  induction 1 as [|a t Ht IH Ha]; constructor; auto. intros Hin.
  rewrite Forall_forall in Ha. specialize (Ha a Hin). lia.
Qed.

(** *** Invariant *)
Definition cell_like (ms : list nat) : Prop :=
  exists seed nbrs k, In seed seeds0 /\ nearest seed = Some nbrs /\
    Permutation ms (seed :: map fst (firstn k nbrs)).

Lemma cell_like_ok ms : cell_like ms -> NoDup ms /\ ms <> [] /\ forall i, In i ms -> i < n.
Proof.
  intros (seed & nbrs & k & Hs & Hn & Hp).
  pose proof (Hseeds Hs) as Hlt. destruct (Hsearch Hlt) as (nb & Hn' & Hnd & Hr).
  assert (nb = nbrs) as -> by congruence.
  assert (Hk : NoDup (map fst (firstn k nbrs)) /\ forall i, In i (map fst (firstn k nbrs)) -> In i (map fst nbrs)).
  { rewrite <- firstn_map. split; [apply NoDup_firstn; auto|]. intros i. apply firstn_in. }
  destruct Hk as [Hk1 Hk2]. split; [|split].
  - eapply Permutation_NoDup; [apply Permutation_sym; exact Hp|]. constructor; auto.
    intros Hin. apply Hk2, Hr in Hin. lia.
  - intros ->. apply Permutation_nil in Hp. discriminate.
  - intros i Hi. apply (Permutation_in _ Hp) in Hi. destruct Hi as [<-|Hi]; auto.
    apply Hk2, Hr in Hi. tauto.
Qed.

Definition thread_ok (t : tstate N) : Prop :=
  match t with
  | TIdle => True
  | TCheck seed => In seed seeds0
  | TStart seed => In seed seeds0
  | TGrow c nbrs => exists seed all k, In seed seeds0 /\ nearest seed = Some all /\
      k <= length all /\ nbrs = skipn k all /\ members c = seed :: map fst (firstn k all)
  | TLock held todo => cell_like (held ++ todo) /\ StronglySorted lt (held ++ todo)
  | TWrite avg towrite held => NoDup towrite /\ NoDup held /\ incl towrite held /\
      (forall i, In i held -> i < n) /\ length avg = nw
  end.

Definition pending_in (t : tstate N) (i : nat) (avg : list N) : Prop :=
  match t with TWrite a tw _ => a = avg /\ In i tw | _ => False end.

Definition virt s V : Prop :=
  length V = length (mem s) /\
  (forall t x i avg, nth_error (threads s) t = Some x -> pending_in x i avg -> nth_error V i = Some avg) /\
  (forall i, (forall t x avg, nth_error (threads s) t = Some x -> ~ pending_in x i avg) ->
     nth_error V i = nth_error (mem s) i).

Definition disjoint_locks s : Prop :=
  forall t1 t2 x1 x2 i, nth_error (threads s) t1 = Some x1 -> nth_error (threads s) t2 = Some x2 ->
    t1 <> t2 -> In i (held_of x1) -> ~ In i (held_of x2).

Definition real_cell (c : Cell N) : Prop := cell_like (members c).

(** A thread that has taken a seed and not yet replaced the weights of its cell. *)
Definition busy (t : tstate N) : nat := match t with TIdle | TWrite _ _ _ => 0 | _ => 1 end.
Definition nbusy s : nat := list_sum (map busy (threads s)).

Record Inv s : Prop := {
  inv_len : length (mem s) = n;
  inv_shaped : shaped mw nw (mem s);
  inv_pool : forall x, In x (pool s) -> In x seeds0;
  inv_thr : forall t x, nth_error (threads s) t = Some x -> thread_ok x;
  inv_dis : disjoint_locks s;
  inv_lin : exists cells V, ofold (cell_resample mw) cells ws0 = Some V /\ Forall real_cell cells /\
              shaped mw nw V /\ virt s V /\ length cells + length (pool s) + nbusy s <= length seeds0
}.

Lemma is_locked_false s i : is_locked s i = false ->
  forall t x, nth_error (threads s) t = Some x -> ~ In i (held_of x).
Proof.
  unfold is_locked. intros H t x Hx Hin.
  assert (existsb (fun t0 => existsb (Nat.eqb i) (held_of t0)) (threads s) = true); [|congruence].
  apply existsb_exists. exists x. split; [eapply nth_error_In; eauto|].
  apply existsb_exists. exists i. split; auto. apply Nat.eqb_refl.
Qed.

Lemma is_locked_true s i : is_locked s i = true ->
  exists t x, nth_error (threads s) t = Some x /\ In i (held_of x).
Proof.
  unfold is_locked. intros H. apply existsb_exists in H. destruct H as (x & Hx & H).
  apply In_nth_error in Hx. destruct Hx as [t Ht]. apply existsb_exists in H.
  destruct H as (j & Hj & E). apply Nat.eqb_eq in E. subst. eauto.
Qed.

Lemma remove_nth_in A k (l : list A) x : In x (remove_nth k l) -> In x l.
Proof.
  revert k. induction l as [|a t IH]; intros [|k]; cbn; auto. intros [->|H]; auto. right; eauto.
Qed.

Lemma remove_nth_length A k (l : list A) x : nth_error l k = Some x -> S (length (remove_nth k l)) = length l.
Proof.
  revert k. induction l as [|a t IH]; intros [|k] H; cbn in *; try discriminate; auto.
Qed.

Lemma init_inv nthreads : Inv (conc_init nthreads seeds0 ws0).
Proof.
  assert (Hth : forall t x, nth_error (repeat (@TIdle N) nthreads) t = Some x -> x = TIdle).
  { intros t x H. apply nth_error_In, repeat_spec in H. auto. }
  constructor; cbn; auto.
  - intros t x H. rewrite (Hth t x H). exact I.
  - intros t1 t2 x1 x2 i H1 H2 _ Hi. apply Hth in H1. subst x1. destruct Hi.
  - exists [], ws0. split; auto. split; auto. split; auto. split.
    + split; auto. split; auto. intros t x i avg H1 H2. apply Hth in H1. subst. destruct H2.
    + assert (nbusy (conc_init nthreads seeds0 ws0) = 0) as E0 by (clear; unfold nbusy; cbn; induction nthreads; auto).
      unfold conc_init in E0. cbn in E0 |- *. lia.
Qed.

Lemma nbusy_step (l l' : list (tstate N)) t old new :
  nth_error l t = Some old ->
  (forall j, nth_error l' j = if Nat.eqb j t then Some new else nth_error l j) ->
  list_sum (map busy l') + busy old = list_sum (map busy l) + busy new.
Proof.
  revert l' t. induction l as [|a l IH]; intros [|a' l'] [|t] Ht Hn; try discriminate.
  - specialize (Hn 0). discriminate.
  - specialize (Hn 0). discriminate.
  - pose proof (Hn 0) as H0. cbn in H0, Ht. injection H0 as ->. injection Ht as ->.
    assert (l' = l) as -> by (apply nth_error_ext; intros j; specialize (Hn (S j)); exact Hn). cbn. lia.
  - pose proof (Hn 0) as H0. cbn in H0. injection H0 as ->.
    specialize (IH l' t Ht (fun j => Hn (S j))).
    unfold list_sum in *. cbn [map fold_right]. lia.
Qed.

(** Steps that touch neither the memory nor pending writes of the thread. *)
Lemma virt_same s s' t old new V :
  nth_error (threads s) t = Some old ->
  (forall j, nth_error (threads s') j = if Nat.eqb j t then Some new else nth_error (threads s) j) ->
  mem s' = mem s ->
  (forall i avg, pending_in new i avg <-> pending_in old i avg) ->
  virt s V -> virt s' V.
Proof.
  intros Ht Hn Hm Hp (V1 & V2 & V3). split; [congruence|]. split.
  - intros j x i avg Hj Hpi. rewrite Hn in Hj. destruct (Nat.eqb_spec j t).
    + injection Hj as <-. apply Hp in Hpi. eapply V2; eauto.
    + eapply V2; eauto.
  - intros i Hno. rewrite Hm. apply V3. intros j x avg Hj Hpi.
    destruct (Nat.eq_dec j t) as [->|Hne].
    + assert (x = old) as -> by congruence. apply (Hno t new avg).
      * rewrite Hn, Nat.eqb_refl. auto.
      * apply Hp; auto.
    + apply (Hno j x avg); auto. rewrite Hn. destruct (Nat.eqb_spec j t); congruence.
Qed.

Lemma disjoint_step s s' t old new :
  nth_error (threads s) t = Some old ->
  (forall j, nth_error (threads s') j = if Nat.eqb j t then Some new else nth_error (threads s) j) ->
  (forall i, In i (held_of new) -> In i (held_of old) \/ is_locked s i = false) ->
  disjoint_locks s -> disjoint_locks s'.
Proof.
  intros Ht Hn Hh Hd.
  assert (Hx : forall j x i, j <> t -> nth_error (threads s') j = Some x -> In i (held_of new) ->
     ~ In i (held_of x)).
  { intros j x i Hj Hx Hi Hi2. rewrite Hn in Hx. destruct (Nat.eqb_spec j t); [congruence|].
    destruct (Hh i Hi) as [H|H].
    - apply (Hd t j old x i); auto.
    - apply (is_locked_false H Hx); auto. }
  intros t1 t2 x1 x2 i H1 H2 Hne Hi1 Hi2.
  destruct (Nat.eq_dec t1 t) as [->|N1].
  - rewrite Hn, Nat.eqb_refl in H1. injection H1 as <-. apply (Hx t2 x2 i); auto.
  - destruct (Nat.eq_dec t2 t) as [->|N2].
    + rewrite Hn, Nat.eqb_refl in H2. injection H2 as <-. apply (Hx t1 x1 i); auto.
    + rewrite Hn in H1, H2. destruct (Nat.eqb_spec t1 t), (Nat.eqb_spec t2 t); try congruence.
      apply (Hd t1 t2 x1 x2 i); auto.
Qed.

Lemma firstn_S_map (all : list (nat * N)) k i d rest :
  skipn k all = (i, d) :: rest ->
  S k <= length all /\ rest = skipn (S k) all /\ map fst (firstn (S k) all) = map fst (firstn k all) ++ [i].
Proof.
  revert k. induction all as [|a t IH]; intros [|k] H; cbn in H; try discriminate.
  - injection H as -> ->. cbn. split; [lia|]. auto.
  - destruct (IH k H) as (H1 & H2 & H3). split; [cbn; lia|]. split; auto. cbn in *. f_equal. exact H3.
Qed.

Lemma grow_like (c : Cell N) seed all k : In seed seeds0 -> nearest seed = Some all ->
  members c = seed :: map fst (firstn k all) ->
  cell_like ([] ++ isort Nat.leb (members c)) /\ StronglySorted lt ([] ++ isort Nat.leb (members c)).
Proof.
  intros H1 H2 H3. cbn.
  assert (Hc : cell_like (members c)).
  { exists seed, all, k. rewrite H3. auto. }
  destruct (cell_like_ok Hc) as (Hnd & _). split; [|apply isort_lt; auto].
  destruct Hc as (sd & nb & k' & A & B & C). exists sd, nb, k'. split; auto. split; auto.
  rewrite <- C. apply Permutation_sym, isort_perm.
Qed.

Lemma average_length V ms avg : shaped mw nw V -> cell_average mw V ms = Some avg -> length avg = nw.
Proof.
  clear Hshaped.
  intros (H0 & H1 & H2) H. unfold cell_average in H. unfold uniform in H2. rewrite Forall_forall in H2.
  destruct mw.
  - destruct ms as [|a t]; [discriminate|].
    destruct (get_weights V a) as [w0|] eqn:E0; [|discriminate].
    destruct (omap (get_weights V) t); [|discriminate].
    destruct (ofold weights_add l w0) as [tot|] eqn:E; [|discriminate]. injection H as <-.
    rewrite map_length. apply fold_add_length in E. destruct E as [-> _].
    apply H2. eapply nth_error_In; eauto.
  - destruct (omap (weight_at V) ms); [|discriminate]. injection H as <-. cbn. symmetry; auto.
Qed.

Lemma write_weights_set (m : weights_state N) i avg m' : write_weights mw m i avg = Some m' -> set_nth i avg m = Some m'.
Proof.
  clear Hshaped.
  unfold write_weights, get_weights, weights_copy_from. destruct mw; auto.
  destruct (nth_error m i); [|discriminate]. destruct (Nat.eqb _ _); [|discriminate]. auto.
Qed.

Lemma shaped_set (m : weights_state N) i avg m' : shaped mw nw m -> length avg = nw -> set_nth i avg m = Some m' -> shaped mw nw m'.
Proof.
  clear Hshaped.
  intros (H0 & H1 & H2) Hl Hs. apply set_nth_spec in Hs. destruct Hs as (_ & _ & H).
  split; auto. split; auto. apply Forall_forall. intros w Hw. apply In_nth_error in Hw.
  destruct Hw as [j Hj]. rewrite H in Hj. destruct (Nat.eqb j i); [congruence|].
  unfold uniform in H2. rewrite Forall_forall in H2. apply H2. eapply nth_error_In; eauto.
Qed.

Lemma write_order_perm ms : Permutation ms (write_order mw ms).
Proof.
  clear Hshaped.
  unfold write_order. destruct mw; auto. destruct ms as [|a t]; auto. cbn.
  apply Permutation_cons_append.
Qed.

(** The memory-preserving steps all go through this lemma. *)
Lemma inv_quiet_step s s' t old new :
  Inv s -> nth_error (threads s) t = Some old ->
  (forall j, nth_error (threads s') j = if Nat.eqb j t then Some new else nth_error (threads s) j) ->
  mem s' = mem s ->
  (forall x, In x (pool s') -> In x (pool s)) ->
  thread_ok new ->
  (forall i, In i (held_of new) -> In i (held_of old) \/ is_locked s i = false) ->
  (forall i avg, pending_in new i avg <-> pending_in old i avg) ->
  length (pool s') + busy new <= length (pool s) + busy old ->
  Inv s'.
Proof.
  intros [I1 I2 I3 I4 I5 I6] Ht Hn Hm Hp Hok Hh Hpd Hb. constructor.
  - congruence.
  - congruence.
  - auto.
  - intros j x Hj. rewrite Hn in Hj. destruct (Nat.eqb_spec j t); [congruence|eauto].
  - eapply disjoint_step; eauto.
  - destruct I6 as (cells & V & A & B & C & D & F). exists cells, V. split; auto. split; auto. split; auto.
    split; [eapply virt_same; eauto|]. unfold nbusy in *. pose proof (nbusy_step Ht Hn). lia.
Qed.

Lemma step_inv s s' : Inv s -> conc_step mw nearest s s' -> Inv s'.
Proof.
  intros HI (t & k & H). unfold thread_step in H.
  destruct (nth_error (threads s) t) as [x|] eqn:Et; [|discriminate].
  pose proof (inv_thr HI Et) as Hok.
  destruct x as [|seed|seed|c nbrs|held todo|avg tw held].
  - destruct (nth_error (pool s) k) as [seed|] eqn:Ep; [|discriminate].
    destruct (length (mem s) <=? seed) eqn:El; [discriminate|].
    destruct (set_nth t (TCheck seed) (threads s)) as [l|] eqn:Es; [|discriminate]. injection H as <-.
    apply set_nth_spec in Es. destruct Es as (_ & _ & Es).
    eapply inv_quiet_step; eauto; cbn; try tauto; try lia.
    + intros x. apply remove_nth_in.
    + apply (inv_pool HI). eapply nth_error_In; eauto.
    + apply remove_nth_length in Ep. lia.
  - destruct (read_weight s seed) as [w|]; [|discriminate].
    destruct (set_nth t (if nltb n0 w then TIdle else TStart seed) (threads s)) as [l|] eqn:Es; [|discriminate]. injection H as <-.
    apply set_nth_spec in Es. destruct Es as (_ & _ & Es).
    eapply inv_quiet_step; eauto; destruct (nltb n0 w); cbn; try tauto; lia.
  - destruct (read_weight s seed) as [w|]; [|discriminate].
    destruct (nearest seed) as [nbrs|] eqn:En; [|discriminate].
    destruct (set_nth t (TGrow (mkCell [seed] n0 w) nbrs) (threads s)) as [l|] eqn:Es; [|discriminate]. injection H as <-.
    apply set_nth_spec in Es. destruct Es as (_ & _ & Es).
    eapply inv_quiet_step; eauto; cbn; try tauto; try lia.
    exists seed, nbrs, 0. split; auto. split; auto. split; [lia|]. auto.
  - destruct Hok as (seed & all & k' & Hs & Hn & Hk & Hnb & Hm).
    destruct nbrs as [|[i d] rest].
    + destruct (set_nth t (TLock [] (isort Nat.leb (members c))) (threads s)) as [l|] eqn:Es; [|discriminate]. injection H as <-.
      apply set_nth_spec in Es. destruct Es as (_ & _ & Es).
      eapply inv_quiet_step; eauto; cbn [held_of pending_in thread_ok busy pool]; try tauto; try lia.
      eapply grow_like; eauto.
    + destruct (read_weight s i) as [w|]; [|discriminate]. cbv zeta in H.
      set (c' := mkCell (members c ++ [i]) d (nadd (weight_sum c) w)) in *.
      set (new := if nleb n0 (nadd (weight_sum c) w) then TLock [] (isort Nat.leb (members c')) else TGrow c' rest) in *.
      destruct (set_nth t new (threads s)) as [l|] eqn:Es; [|discriminate]. injection H as <-.
      apply set_nth_spec in Es. destruct Es as (_ & _ & Es).
      destruct (@firstn_S_map all k' i d rest (eq_sym Hnb)) as (F1 & F2 & F3).
      assert (Hm' : members c' = seed :: map fst (firstn (S k') all)).
      { unfold c'. cbn [members]. rewrite Hm, F3. reflexivity. }
      eapply inv_quiet_step; eauto; unfold new; destruct (nleb n0 (nadd (weight_sum c) w));
        cbn [held_of pending_in thread_ok busy pool]; try tauto; try lia.
      * eapply grow_like; eauto.
      * exists seed, all, (S k'). auto.
  - destruct Hok as [Hlike Hsort]. destruct todo as [|i todo].
    + rewrite app_nil_r in *.
      destruct (cell_average mw (mem s) held) as [avg|] eqn:Ea; [|discriminate].
      destruct (set_nth t (TWrite avg (write_order mw held) held) (threads s)) as [l|] eqn:Es; [|discriminate]. injection H as <-.
      apply set_nth_spec in Es. destruct Es as (_ & _ & Es).
      destruct (cell_like_ok Hlike) as (Hnd & Hne & Hlt).
      pose proof (write_order_perm held) as Hwo.
      destruct HI as [I1 I2 I3 I4 I5 I6].
      constructor; auto.
      * intros j x Hj. cbn in Hj. rewrite Es in Hj. destruct (Nat.eqb_spec j t); [|eauto].
        injection Hj as <-. cbn. split; [eapply Permutation_NoDup; eauto|]. split; auto.
        split; [intros i; apply Permutation_in, Permutation_sym; auto|]. split; auto.
        eapply average_length; eauto.
      * eapply disjoint_step; eauto.
      * destruct I6 as (cells & V & A & B & C & (V1 & V2 & V3) & F).
        assert (Hagree : forall i, In i held -> nth_error V i = nth_error (mem s) i).
        { intros i Hi. apply V3. intros j x a Hj Hp.
          destruct (Nat.eq_dec j t) as [->|Hne'].
          - assert (x = TLock held []) as -> by congruence. destruct Hp.
          - apply (I5 t j (TLock held []) x i); auto. destruct x; try destruct Hp. cbn.
            specialize (I4 _ _ Hj). cbn in I4. destruct I4 as (_ & _ & Hinc & _). auto. }
        set (cc := mkCell held (n0 (n := N)) n0).
        assert (HlV : length V = n) by congruence.
        destruct (@resample_some N mw nw V cc) as [V' HV']; auto.
        { cbn. rewrite HlV. auto. }
        destruct (resample_average HV') as (avg' & Ea' & Hfr).
        cbn [members cc] in Ea'. rewrite (sorted_isort Hsort) in Ea'.
        rewrite (average_ext Hagree) in Ea'. assert (avg' = avg) as -> by congruence.
        cbn [members cc] in Hfr.
        exists (cells ++ [cc]), V'. split; [|split; [|split; [|split]]].
        -- rewrite ofold_app, A. cbn. rewrite HV'. reflexivity.
        -- apply Forall_app. split; auto.
        -- eapply resample_shaped; eauto.
        -- pose proof (resample_frame _ _ _ HV') as (_ & _ & HlV' & _).
           split; [cbn; congruence|]. cbn [threads mem]. split.
           ++ intros j x i a Hj Hp. rewrite Es in Hj. rewrite Hfr. destruct (Nat.eqb_spec j t).
              ** injection Hj as <-. destruct Hp as [<- Hp].
                 destruct in_dec as [|Hni]; auto. exfalso. apply Hni.
                 eapply Permutation_in; [apply Permutation_sym; exact Hwo|]; auto.
              ** destruct in_dec as [Hi|Hni]; [|eapply V2; eauto].
                 exfalso. apply (I5 t j (TLock held []) x i); auto. destruct x; try destruct Hp. cbn.
                 specialize (I4 _ _ Hj). cbn in I4. destruct I4 as (_ & _ & Hinc & _). auto.
           ++ intros i Hno. rewrite Hfr. destruct in_dec as [Hi|Hni].
              ** exfalso. apply (Hno t (TWrite avg (write_order mw held) held) avg).
                 --- rewrite Es, Nat.eqb_refl. auto.
                 --- split; auto. eapply Permutation_in; eauto.
              ** apply V3. intros j x a Hj Hp. destruct (Nat.eq_dec j t) as [->|Hne'].
                 --- assert (x = TLock held []) as -> by congruence. destruct Hp.
                 --- apply (Hno j x a); auto. rewrite Es. destruct (Nat.eqb_spec j t); congruence.
        -- pose proof (nbusy_step Et Es) as Hnb. unfold nbusy in *. cbn [pool threads]. rewrite app_length.
           cbn in Hnb |- *. lia.
    + destruct (is_locked s i) eqn:El; [discriminate|].
      destruct (set_nth t (TLock (held ++ [i]) todo) (threads s)) as [l|] eqn:Es; [|discriminate]. injection H as <-.
      apply set_nth_spec in Es. destruct Es as (_ & _ & Es).
      eapply inv_quiet_step; eauto; cbn [held_of pending_in thread_ok busy pool]; try tauto; try lia.
      * rewrite <- app_assoc. cbn. auto.
      * intros j Hj. apply in_app_or in Hj. destruct Hj as [Hj|[<-|[]]]; auto.
  - destruct Hok as (Hn1 & Hn2 & Hinc & Hlt & Hla). destruct tw as [|i rest].
    + destruct held as [|j held].
      * destruct (set_nth t TIdle (threads s)) as [l|] eqn:Es; [|discriminate]. injection H as <-.
        apply set_nth_spec in Es. destruct Es as (_ & _ & Es).
        eapply inv_quiet_step; eauto; cbn; try tauto; lia.
      * destruct (set_nth t (TWrite avg [] held) (threads s)) as [l|] eqn:Es; [|discriminate]. injection H as <-.
        apply set_nth_spec in Es. destruct Es as (_ & _ & Es).
        eapply inv_quiet_step; eauto; cbn; try tauto; try lia.
        split; [constructor|]. split; [inversion Hn2; auto|]. split; [intros x []|]. split; auto.
        intros i Hi. apply Hlt. right; auto.
    + destruct (write_weights mw (mem s) i avg) as [m|] eqn:Ew; [|discriminate].
      set (held' := if mw then held else rest) in *.
      destruct (set_nth t (TWrite avg rest held') (threads s)) as [l|] eqn:Es; [|discriminate]. injection H as <-.
      apply set_nth_spec in Es. destruct Es as (_ & _ & Es).
      apply write_weights_set in Ew. pose proof (set_nth_spec _ _ _ Ew) as (Hi & Hlm & Hm).
      assert (Hh : incl held' held).
      { unfold held'. destruct mw; [apply incl_refl|]. intros x Hx. apply Hinc. right; auto. }
      inversion Hn1 as [|? ? Hni Hnr]; subst.
      destruct HI as [I1 I2 I3 I4 I5 I6]. constructor; cbn [mem threads pool].
      * congruence.
      * eapply shaped_set; eauto.
      * auto.
      * intros j x Hj. rewrite Es in Hj. destruct (Nat.eqb_spec j t); [|eauto].
        injection Hj as <-. cbn. split; auto. split; [unfold held'; destruct mw; auto|].
        split; [|split; auto]. intros x Hx. unfold held'. destruct mw; auto. apply Hinc. right; auto.
      * eapply disjoint_step; eauto.
      * destruct I6 as (cells & V & A & B & C & (V1 & V2 & V3) & F). exists cells, V.
        split; auto. split; auto. split; auto.
        split; [|pose proof (nbusy_step Et Es) as Hnb; unfold nbusy in *; cbn [pool threads] in *; cbn in Hnb; lia].
        split; [cbn; congruence|]. cbn [mem threads]. split.
        -- intros j x i' a Hj Hp. rewrite Es in Hj. destruct (Nat.eqb_spec j t).
           ++ injection Hj as <-. destruct Hp as [<- Hp]. apply (V2 t _ i' avg Et). split; auto. right; auto.
           ++ eapply V2; eauto.
        -- intros i' Hno. rewrite Hm. destruct (Nat.eqb_spec i' i) as [->|Hne].
           ++ apply (V2 t _ i avg Et). split; auto. left; auto.
           ++ apply V3. intros j x a Hj Hp. destruct (Nat.eq_dec j t) as [->|Hjt].
              ** assert (x = TWrite avg (i :: rest) held) as -> by congruence. destruct Hp as [<- [Hp|Hp]]; [congruence|].
                 apply (Hno t (TWrite avg rest held') avg); [rewrite Es, Nat.eqb_refl; auto|]. split; auto.
              ** apply (Hno j x a); auto. rewrite Es. destruct (Nat.eqb_spec j t); congruence.
Qed.

Lemma steps_inv k s s' : Inv s -> conc_steps mw nearest k s s' -> Inv s'.
Proof.
  intros HI H. induction H as [|k s1 s2 s3 H IH Hst]; [exact HI|]. exact (step_inv (IH HI) Hst).
Qed.

(** No thread holds a lock. *)
Definition no_locks s : Prop := Forall (fun t => held_of t = []) (threads s).

Lemma virt_quiet s V : Inv s -> no_locks s -> virt s V -> V = mem s.
Proof.
  intros HI Hq (V1 & V2 & V3). apply nth_error_ext. intros i. apply V3.
  intros t x avg Ht Hp. destruct x; try destruct Hp. pose proof (inv_thr HI Ht) as (_ & _ & Hinc & _).
  unfold no_locks in Hq. rewrite Forall_forall in Hq. apply nth_error_In in Ht. apply Hq in Ht. cbn in Ht.
  subst. apply (Hinc i); auto.
Qed.

Lemma linearise nthreads k s : conc_steps mw nearest k (conc_init nthreads seeds0 ws0) s -> no_locks s ->
  exists cells, ofold (cell_resample mw) cells ws0 = Some (mem s) /\ Forall real_cell cells /\
    length cells <= length seeds0.
Proof.
  intros H Hq. pose proof (steps_inv (init_inv nthreads) H) as HI.
  destruct (inv_lin HI) as (cells & V & A & B & _ & D & F).
  rewrite (virt_quiet HI Hq D) in A. exists cells. split; auto. split; auto. lia.
Qed.

(** *** Progress *)
Definition finished s : Prop := pool s = [] /\ Forall (eq TIdle) (threads s).

Lemma go_some s t x m p new : nth_error (threads s) t = Some x ->
  exists s', match set_nth t new (threads s) with None => None | Some l => Some (mkConc m p l) end = Some s'.
Proof.
  intros H. destruct (@set_nth_some _ t new (threads s)) as [l ->]; eauto.
  apply nth_error_Some. congruence.
Qed.

Lemma average_some V ms : shaped mw nw V -> ms <> [] -> (forall i, In i ms -> i < length V) ->
  exists avg, cell_average mw V ms = Some avg.
Proof.
  clear Hshaped.
  intros Hs Hne Hlt. unfold cell_average. destruct mw eqn:Em.
  - destruct ms as [|a t]; [congruence|].
    destruct (shaped_nth Hs (Hlt a (or_introl eq_refl))) as (w0 & E0 & L0).
    unfold get_weights. rewrite E0.
    assert (exists l, omap (fun i => nth_error V i) t = Some l /\ Forall (fun w => length w = nw) l) as (l & -> & Hl).
    { assert (Hlt' : forall i, In i t -> i < length V) by (intros; apply Hlt; right; auto).
      clear - Hs Hlt'. induction t as [|b t IH]; cbn; [eauto|].
      destruct (shaped_nth Hs (Hlt' b (or_introl eq_refl))) as (w & -> & L).
      destruct IH as (l & -> & Hl); [intros; apply Hlt'; right; auto|]. eauto. }
    destruct (@fold_add_some N l w0) as [tot ->]; eauto. rewrite L0. auto.
  - assert (exists l, omap (weight_at V) ms = Some l) as (l & ->); eauto.
    clear Hne. induction ms as [|b t IH]; cbn; [eauto|].
    destruct (shaped_weight_at Hs (Hlt b (or_introl eq_refl))) as (w & ->).
    destruct IH as (l & ->); [intros; apply Hlt; right; auto|]. eauto.
Qed.

Lemma lock_progress s : Inv s -> forall m t held i todo, n - i <= m ->
  nth_error (threads s) t = Some (TLock held (i :: todo)) -> exists s', conc_step mw nearest s s'.
Proof.
  intros HI. induction m as [|m IH]; intros t held i todo Hm Ht.
  - exfalso. destruct (inv_thr HI Ht) as [Hl _]. apply cell_like_ok in Hl. destruct Hl as (_ & _ & Hlt).
    assert (i < n) by (apply Hlt, in_or_app; right; left; auto). lia.
  - destruct (is_locked s i) eqn:El.
    + apply is_locked_true in El. destruct El as (t' & x & Ht' & Hin).
      destruct x as [| | | |held' todo'|avg tw held']; try (destruct Hin; fail).
      * destruct (inv_thr HI Ht') as [Hl' Hs']. destruct todo' as [|j todo'].
        -- rewrite app_nil_r in *. destruct (cell_like_ok Hl') as (_ & Hne & Hlt).
           destruct (@average_some (mem s) held') as [avg Ea]; auto.
           { apply (inv_shaped HI). } { rewrite (inv_len HI). auto. }
           destruct (@go_some s t' _ (mem s) (pool s) (TWrite avg (write_order mw held') held') Ht') as [s' Hs].
           exists s', t', 0. unfold thread_step. rewrite Ht', Ea. exact Hs.
        -- apply (IH t' held' j todo'); auto.
           assert (i < j).
           { cbn in Hin. clear - Hs' Hin. induction held' as [|a h IHh]; [destruct Hin|].
             inversion Hs' as [|? ? H1 H2]; subst. destruct Hin as [->|Hin]; auto.
             rewrite Forall_forall in H2. apply H2, in_or_app. right; left; auto. }
           lia.
      * destruct (inv_thr HI Ht') as (_ & _ & Hinc & Hlt & Hla). cbn in Hin.
        destruct tw as [|j tw].
        -- destruct held' as [|j held']; [destruct Hin|].
           destruct (@go_some s t' _ (mem s) (pool s) (TWrite avg [] held') Ht') as [s' Hs].
           exists s', t', 0. unfold thread_step. rewrite Ht'. exact Hs.
        -- assert (Hj : j < length (mem s)) by (rewrite (inv_len HI); apply Hlt, Hinc; left; auto).
           assert (exists m', write_weights mw (mem s) j avg = Some m') as [m' Em].
           { unfold write_weights, get_weights. destruct mw eqn:Emw; [|apply set_nth_some; auto].
             destruct (shaped_nth (inv_shaped HI) Hj) as (w & -> & Lw). unfold weights_copy_from.
             rewrite Lw, Hla, Nat.eqb_refl. apply set_nth_some; auto. }
           destruct (@go_some s t' _ m' (pool s) (TWrite avg tw (if mw then held' else tw)) Ht') as [s' Hs].
           exists s', t', 0. unfold thread_step. rewrite Ht', Em. exact Hs.
    + destruct (@go_some s t _ (mem s) (pool s) (TLock (held ++ [i]) todo) Ht) as [s' Hs].
      exists s', t, 0. unfold thread_step. rewrite Ht, El. exact Hs.
Qed.

(** A thread that holds a lock, or waits for a lock that is held, leads to a step. *)
Lemma holder_progress s t x : Inv s -> nth_error (threads s) t = Some x -> held_of x <> [] ->
  exists s', conc_step mw nearest s s'.
Proof.
  intros HI Ht Hh. destruct x as [| | | |held todo|avg tw held]; try (cbn in Hh; congruence).
  - destruct todo as [|j todo]; [|eapply lock_progress; eauto].
    destruct (inv_thr HI Ht) as [Hl _]. rewrite app_nil_r in Hl.
    destruct (cell_like_ok Hl) as (_ & Hne & Hlt).
    destruct (@average_some (mem s) held) as [avg Ea]; auto.
    { apply (inv_shaped HI). } { rewrite (inv_len HI). auto. }
    destruct (@go_some s t _ (mem s) (pool s) (TWrite avg (write_order mw held) held) Ht) as [s' Hs].
    exists s', t, 0. unfold thread_step. rewrite Ht, Ea. exact Hs.
  - destruct (inv_thr HI Ht) as (_ & _ & Hinc & Hlt & Hla).
    destruct tw as [|j tw].
    + destruct held as [|j held]; [cbn in Hh; congruence|].
      destruct (@go_some s t _ (mem s) (pool s) (TWrite avg [] held) Ht) as [s' Hs].
      exists s', t, 0. unfold thread_step. rewrite Ht. exact Hs.
    + assert (Hj : j < length (mem s)) by (rewrite (inv_len HI); apply Hlt, Hinc; left; auto).
      assert (exists m', write_weights mw (mem s) j avg = Some m') as [m' Em].
      { unfold write_weights, get_weights. destruct mw eqn:Emw; [|apply set_nth_some; auto].
        destruct (shaped_nth (inv_shaped HI) Hj) as (w & -> & Lw). unfold weights_copy_from.
        rewrite Lw, Hla, Nat.eqb_refl. apply set_nth_some; auto. }
      destruct (@go_some s t _ m' (pool s) (TWrite avg tw (if mw then held else tw)) Ht) as [s' Hs].
      exists s', t, 0. unfold thread_step. rewrite Ht, Em. exact Hs.
Qed.

Lemma read_progress s i : Inv s -> i < n ->
  (exists w, read_weight s i = Some w) \/ exists s', conc_step mw nearest s s'.
Proof.
  intros HI Hi. unfold read_weight. destruct (is_locked s i) eqn:El.
  - right. apply is_locked_true in El. destruct El as (t & x & Ht & Hin).
    apply (holder_progress HI Ht). intros E. rewrite E in Hin. destruct Hin.
  - left. apply (shaped_weight_at (inv_shaped HI)). rewrite (inv_len HI). auto.
Qed.

Lemma progress s : Inv s -> threads s <> [] -> ~ finished s -> exists s', conc_step mw nearest s s'.
Proof.
  intros HI Hthr Hnf.
  assert (Hd : (exists t x, nth_error (threads s) t = Some x /\ x <> TIdle) \/ Forall (eq TIdle) (threads s)).
  { clear. induction (threads s) as [|x l IH]; [right; constructor|].
    destruct IH as [(t & y & Hy & Hne)|H].
    - left. exists (S t), y. auto.
    - destruct x; try (left; eexists 0, _; split; [reflexivity|discriminate]). right. constructor; auto. }
  destruct Hd as [(t & x & Ht & Hne)|Hall].
  - pose proof (inv_thr HI Ht) as Hok. destruct x as [|seed|seed|c nbrs|held todo|avg tw held]; [congruence| | | | |].
    + destruct (read_progress HI (Hseeds Hok)) as [[w Hw]|]; auto.
      destruct (@go_some s t _ (mem s) (pool s) (if nltb n0 w then TIdle else TStart seed) Ht) as [s' Hs].
      exists s', t, 0. unfold thread_step. rewrite Ht, Hw. exact Hs.
    + destruct (read_progress HI (Hseeds Hok)) as [[w Hw]|]; auto.
      destruct (Hsearch (Hseeds Hok)) as (nbrs & Hn & _).
      destruct (@go_some s t _ (mem s) (pool s) (TGrow (mkCell [seed] n0 w) nbrs) Ht) as [s' Hs].
      exists s', t, 0. unfold thread_step. rewrite Ht, Hw, Hn. exact Hs.
    + destruct Hok as (seed & all & k & Hs & Hn & Hk & Hnb & Hm). destruct nbrs as [|[i d] rest].
      * destruct (@go_some s t _ (mem s) (pool s) (TLock [] (isort Nat.leb (members c))) Ht) as [s' Hs'].
        exists s', t, 0. unfold thread_step. rewrite Ht. exact Hs'.
      * assert (Hi : i < n).
        { destruct (Hsearch (Hseeds Hs)) as (nb & Hn' & _ & Hr). assert (nb = all) as -> by congruence.
          apply Hr. apply (in_map fst) with (x := (i, d)). rewrite <- (firstn_skipn k all). apply in_or_app. right.
          rewrite <- Hnb. left; auto. }
        destruct (read_progress HI Hi) as [[w Hw]|]; auto.
        destruct (@go_some s t _ (mem s) (pool s)
          (if nleb n0 (nadd (weight_sum c) w) then TLock [] (isort Nat.leb (members c ++ [i]))
           else TGrow (mkCell (members c ++ [i]) d (nadd (weight_sum c) w)) rest) Ht) as [s' Hs'].
        exists s', t, 0. unfold thread_step. rewrite Ht, Hw. exact Hs'.
    + destruct todo as [|i todo]; [|eapply lock_progress; eauto].
      apply (holder_progress HI Ht). cbn. destruct Hok as [Hl _]. rewrite app_nil_r in Hl.
      apply cell_like_ok in Hl. tauto.
    + destruct held as [|j held]; [|apply (holder_progress HI Ht); cbn; congruence].
      destruct Hok as (_ & _ & Hinc & _). destruct tw as [|j tw]; [|destruct (Hinc j (or_introl eq_refl))].
      destruct (@go_some s t _ (mem s) (pool s) TIdle Ht) as [s' Hs].
      exists s', t, 0. unfold thread_step. rewrite Ht. exact Hs.
  - destruct (pool s) as [|seed p] eqn:Ep; [exfalso; apply Hnf; split; auto|].
    destruct (threads s) as [|x l] eqn:Eth; [congruence|].
    inversion Hall as [|? ? Hx _]; subst.
    assert (Ht : nth_error (threads s) 0 = Some TIdle) by (rewrite Eth; auto).
    destruct (@go_some s 0 _ (mem s) (remove_nth 0 (pool s)) (TCheck seed) Ht) as [s' Hs].
    exists s', 0, 0. unfold thread_step. rewrite Ht, Ep. cbn [nth_error].
    replace (length (mem s) <=? seed) with false.
    + rewrite Ep in Hs. exact Hs.
    + symmetry. apply Nat.leb_gt. rewrite (inv_len HI). apply Hseeds, (inv_pool HI). rewrite Ep. left; auto.
Qed.

(** *** Termination *)
Definition nbr_count (seed : nat) : nat := match nearest seed with Some l => length l | None => 0 end.

Definition t_cost (t : tstate N) : nat :=
  match t with
  | TIdle => 0
  | TCheck seed => 10 + 4 * nbr_count seed
  | TStart seed => 9 + 4 * nbr_count seed
  | TGrow c nbrs => 4 + 4 * length nbrs + 3 * length (members c)
  | TLock held todo => 2 + 3 * length todo + 2 * length held
  | TWrite _ tw held => 1 + length tw + length held
  end.

Definition seed_cost (seed : nat) : nat := 11 + 4 * nbr_count seed.

Definition cost s : nat := list_sum (map seed_cost (pool s)) + list_sum (map t_cost (threads s)).

Lemma list_sum_set (l l' : list (tstate N)) t old new :
  nth_error l t = Some old -> set_nth t new l = Some l' ->
  list_sum (map t_cost l') + t_cost old = list_sum (map t_cost l) + t_cost new.
Proof.
  intros Ho Hs. destruct (@set_nth_split _ t new old l Ho) as (l1 & l2 & -> & _ & E).
  assert (l' = l1 ++ new :: l2) as -> by congruence.
  rewrite !map_app, !list_sum_app. cbn. lia.
Qed.

Lemma remove_nth_sum k (l : list nat) x : nth_error l k = Some x ->
  list_sum (map seed_cost (remove_nth k l)) + seed_cost x = list_sum (map seed_cost l).
Proof.
  generalize seed_cost as f. intros f.
  revert k. induction l as [|a t IH]; intros [|k] H; cbn [nth_error remove_nth map] in *; try discriminate.
  - injection H as ->. unfold list_sum. cbn [fold_right]. lia.
  - specialize (IH k H). unfold list_sum in *. cbn [fold_right] in *. lia.
Qed.

Lemma step_cost s s' : Inv s -> conc_step mw nearest s s' -> cost s' < cost s.
Proof.
  intros HI (t & k & H). unfold thread_step in H.
  destruct (nth_error (threads s) t) as [x|] eqn:Et; [|discriminate].
  pose proof (inv_thr HI Et) as Hok.
  assert (Hgo : forall m p new s'', match set_nth t new (threads s) with None => None | Some l => Some (mkConc m p l) end = Some s'' ->
     cost s'' + t_cost x + list_sum (map seed_cost (pool s)) = cost s + t_cost new + list_sum (map seed_cost p)).
  { intros m p new s'' H'. destruct (set_nth t new (threads s)) as [l|] eqn:Es; [|discriminate].
    injection H' as <-. pose proof (list_sum_set Et Es). unfold cost. cbn [pool threads]. lia. }
  destruct x as [|seed|seed|c nbrs|held todo|avg tw held].
  - destruct (nth_error (pool s) k) as [seed|] eqn:Ep; [|discriminate].
    destruct (length (mem s) <=? seed); [discriminate|]. apply Hgo in H.
    apply remove_nth_sum in Ep. cbn [t_cost] in H. unfold seed_cost at 2 in Ep. lia.
  - destruct (read_weight s seed) as [w|]; [|discriminate]. apply Hgo in H.
    destruct (nltb n0 w); cbn [t_cost] in H; lia.
  - destruct (read_weight s seed) as [w|]; [|discriminate].
    destruct (nearest seed) as [nbrs|] eqn:En; [|discriminate]. apply Hgo in H.
    cbn [t_cost members length] in H. unfold nbr_count in H. rewrite En in H. lia.
  - destruct nbrs as [|[i d] rest].
    + apply Hgo in H. cbn [t_cost length] in H.
      rewrite <- (Permutation_length (isort_perm Nat.leb (members c))) in H. lia.
    + destruct (read_weight s i) as [w|]; [|discriminate]. cbv zeta in H. apply Hgo in H.
      destruct (nleb n0 (nadd (weight_sum c) w)); cbn [t_cost length members] in H.
      * rewrite <- (Permutation_length (isort_perm Nat.leb (members c ++ [i]))) in H.
        rewrite app_length in H. cbn [length] in H. lia.
      * rewrite app_length in H. cbn [length] in H. lia.
  - destruct todo as [|i todo].
    + destruct (cell_average mw (mem s) held) as [avg|]; [|discriminate]. apply Hgo in H.
      cbn [t_cost length] in H. rewrite <- (Permutation_length (write_order_perm held)) in H. lia.
    + destruct (is_locked s i); [discriminate|]. apply Hgo in H. cbn [t_cost length] in H.
      rewrite app_length in H. cbn [length] in H. lia.
  - destruct tw as [|i rest].
    + destruct held as [|j held]; apply Hgo in H; cbn [t_cost length] in H; lia.
    + destruct (write_weights mw (mem s) i avg) as [m|]; [|discriminate]. apply Hgo in H.
      destruct Hok as (Hn1 & _ & Hinc & _). pose proof (NoDup_incl_length Hn1 Hinc) as Hl.
      cbn [t_cost length] in *. destruct mw; lia.
Qed.

Lemma steps_bound nthreads k s : conc_steps mw nearest k (conc_init nthreads seeds0 ws0) s ->
  k + cost s <= list_sum (map seed_cost seeds0).
Proof.
  intros H. remember (conc_init nthreads seeds0 ws0) as s0 eqn:E. induction H as [s1|k s1 s2 s3 H IH Hst]; subst.
  - unfold cost, conc_init. cbn [pool threads].
    assert (list_sum (map t_cost (repeat TIdle nthreads)) = 0) as ->; [|lia].
    clear. induction nthreads; cbn; auto.
  - specialize (IH eq_refl). pose proof (step_cost (steps_inv (init_inv nthreads) H) Hst). lia.
Qed.

Lemma threads_length k s s' : conc_steps mw nearest k s s' -> length (threads s') = length (threads s).
Proof.
  induction 1 as [|k s1 s2 s3 H IH (t & c & Hst)]; auto. rewrite <- IH. clear - Hst. unfold thread_step in Hst.
  assert (Hgo : forall m p new s'', match set_nth t new (threads s2) with None => None | Some l => Some (mkConc m p l) end = Some s'' ->
     length (threads s'') = length (threads s2)).
  { intros m p new s'' H'. destruct (set_nth t new (threads s2)) as [l|] eqn:Es; [|discriminate].
    injection H' as <-. apply set_nth_spec in Es. cbn. tauto. }
  repeat match type of Hst with
  | context [match ?x with _ => _ end] => destruct x eqn:?; try discriminate
  end; injection Hst as <-; cbn;
  match goal with E : set_nth _ _ _ = Some _ |- _ => apply set_nth_spec in E; tauto end.
Qed.

End Conc.
Arguments finished {N}. Arguments no_locks {N}. Arguments cell_like {N}.
