(** Proofs for C77: cres-make-partition followed by cres-classify-events. *)
From Coq Require Import NArith Permutation.
From Verif Require Import Base BaseProofs Num ModelEvent ModelText ModelIO ModelNaive ModelVPTree ModelResampler ModelPartition ModelClassify
  SpecTree SpecPartition SpecShare SeedsProofs NaiveProofs VPTreeProofs PartitionProofs ShareProofs ModelPartMain PropsPartition.

(** *** Vantage points are different points *)
Section Forks.
Context (F : NumOps).
Fixpoint forkpts (t : btree F) : list nat := match t with Leaf _ => [] | Fork v _ i o => v :: forkpts i ++ forkpts o end.
Lemma levels_perm d : forall q : list (btree F), Forall (full d) q -> Permutation (map b_pt (levels d q)) (flat_map forkpts q).
Proof.
  induction d as [|d IH]; intros q Hq.
  - cbn [levels map]. assert (E : flat_map forkpts q = []); [|rewrite E; constructor].
    induction Hq as [|t q Ht Hq IHq]; [reflexivity|]. destruct t; [cbn; exact IHq|destruct Ht].
  - cbn [levels]. rewrite map_app, (IH _ (full_kids Hq)). clear IH. induction Hq as [|t q Ht Hq IHq]; [constructor|].
    destruct t as [|v r i o]; [destruct Ht|]. cbn [flat_map root kids app map b_pt forkpts]. constructor. rewrite <- IHq.
    rewrite <- app_assoc. rewrite (Permutation_app_swap_app _ (forkpts i)). apply Permutation_app_head. apply Permutation_app_swap_app.
Qed.
Lemma forkpts_in (t : btree F) p : In p (forkpts t) -> In p (points t).
Proof.
  induction t as [|v r i IHi o IHo]; cbn; [tauto|]. intros [->|H]; auto. right. apply in_app_or in H. apply in_or_app. tauto.
Qed.
Lemma nodup_app_iff {A} (a b : list A) : NoDup (a ++ b) <-> NoDup a /\ NoDup b /\ forall x, In x a -> ~ In x b.
Proof.
  induction a as [|x a IH]; cbn; [firstorder; constructor|]. split.
  - intros H. inversion H as [|? ? Hx Hn]; subst. apply IH in Hn as (H1 & H2 & H3). split; [constructor; auto; intros Hi; apply Hx, in_or_app; auto|].
    split; auto. intros y [<-|Hy]; auto. intros Hb. apply Hx, in_or_app. auto.
  - intros (H1 & H2 & H3). inversion H1 as [|? ? Hx Hn]; subst. constructor.
    + intros Hi. apply in_app_or in Hi as [Hi|Hi]; auto. apply (H3 x); auto.
    + apply IH. auto.
Qed.
Lemma forkpts_nodup (t : btree F) : NoDup (points t) -> NoDup (forkpts t).
Proof.
  induction t as [|v r i IHi o IHo]; cbn; [constructor|]. intros H. inversion H as [|? ? Hv Hn]; subst.
  apply nodup_app_iff in Hn as (H1 & H2 & H3). constructor.
  - intros Hi. apply Hv. apply in_app_or in Hi. apply in_or_app. destruct Hi; [left|right]; apply forkpts_in; auto.
  - apply nodup_app_iff. split; auto. split; auto. intros x Ha Hb. apply (H3 x); apply forkpts_in; auto.
Qed.
End Forks.

(** *** What the construction yields *)
Section Made.
Context (F : NumOps) (D : F -> Prop) (Hord : order_on F D) (sort : sorter) (Hsort : sort_ok sort)
  (choose : chooser) (Hchoose : choose_ok choose) (m : nat) (Hm : 2 <= m) (dist : nat -> nat -> F) (n : nat)
  (HD : forall i j, i < n -> j < n -> D (dist i j)).

Lemma made_shape k vp : k < 32 -> make_partition sort choose m dist n (2 ^ N.of_nat k) = Partition vp ->
  exists t pts, shape dist k pts t /\ full k t /\ Permutation pts (seq 0 n) /\ heap_order vp 0 t /\
    length vp + 1 = 2 ^ k /\ NoDup (map b_pt vp) /\ (forall b, In b vp -> b_pt b < n) /\ 2 ^ k <= n.
Proof.
  intros Hk H. destruct (C39_construction_partial F D sort choose m dist n k Hord Hsort Hchoose Hm HD Hk) as (A & _ & B).
  destruct (Nat.lt_ge_cases n (2 ^ k)) as [Hlt|Hle]; [rewrite A in H by auto; discriminate|].
  assert (Hb : k = 0 \/ 3 * 2 ^ (k - 1) - 1 <= n).
  { destruct (Nat.eq_dec k 0) as [|Hk0]; auto. right. destruct (Nat.lt_ge_cases n (3 * 2 ^ (k - 1) - 1)); auto.
    rewrite B in H; auto; [discriminate|lia]. }
  assert (Hn : 0 < n) by (pose proof (pow2_pos k); lia).
  destruct (construct F D Hord sort Hsort choose Hchoose m Hm dist n HD k Hn Hk Hle) as (t & vp' & nodes & H1 & H2 & H3 & H4 & H5).
  assert (Hl : length (map (@vantage_pt F) nodes) = n).
  { apply Permutation_length in H2. rewrite seq_length in H2. auto. }
  assert (Hf : full k t) by (eapply shape_full; eauto; rewrite Hl; auto).
  rewrite H5 in H. unfold from_vp in H. destruct (is_power_of_two _); [|discriminate]. injection H as ->.
  exists t, (map (@vantage_pt F) nodes). pose proof (full_forks Hf) as Hff. rewrite (shape_count H1), Hl, <- H3 in Hff.
  assert (Hp : Permutation (map b_pt vp) (forkpts F t)).
  { rewrite (H4 Hf), (levels_perm F k [t]) by (repeat constructor; auto). cbn [flat_map]. rewrite app_nil_r. apply Permutation_refl. }
  assert (Hnd : NoDup (points t)).
  { rewrite (shape_points H1). apply (Permutation_NoDup H2), seq_NoDup. }
  split; [exact H1|]. split; [exact Hf|]. split; [apply Permutation_sym; exact H2|]. split; [rewrite (H4 Hf); apply full_heap; exact Hf|].
  split; [exact Hff|]. split; [|split; [|exact Hle]].
  - apply (Permutation_NoDup (Permutation_sym Hp)), forkpts_nodup, Hnd.
  - intros b Hb'. apply (in_map b_pt) in Hb'. apply (Permutation_in _ Hp), forkpts_in in Hb'.
    rewrite (shape_points H1) in Hb'. apply (Permutation_in _ (Permutation_sym H2)), in_seq in Hb'. lia.
Qed.

Lemma perm_filter {A} (P : A -> bool) l l' : Permutation l l' -> Permutation (filter P l) (filter P l').
Proof.
  induction 1; cbn; auto.
  - destruct (P x); auto.
  - destruct (P x), (P y); auto. constructor.
  - eapply perm_trans; eauto.
Qed.

Definition in_region (vp : list (Bisection F nat)) (r i : nat) : bool :=
  match region dist vp i with Some j => j =? r | None => false end.

Lemma made_share k vp : k < 32 -> make_partition sort choose m dist n (2 ^ N.of_nat k) = Partition vp ->
  nearest_to_itself n dist -> general_position n dist ->
  forall r, r < 2 ^ k -> fair_share n k (length (filter (in_region vp r) (seq 0 n))).
Proof.
  intros Hk H Hs Hg r Hr. destruct (made_shape k vp Hk H) as (t & pts & H1 & H2 & H3 & H4 & H5 & _).
  destruct (num_surj k r Hr) as (path & Hp & Hnum).
  assert (E : length (filter (in_region vp r) (seq 0 n)) = arrive F dist t path pts).
  { rewrite <- (Permutation_length (perm_filter _ _ _ H3)). unfold arrive. f_equal. apply filter_ext. intros p.
    unfold in_region. destruct (region_walk F dist k vp t p H2 H5 H4) as [Lw ->]. unfold same.
    destruct (list_eq_dec Bool.bool_dec (walk F dist t p) path) as [->|Hne]; [rewrite Hnum; apply Nat.eqb_refl|].
    apply Nat.eqb_neq. intros E. apply Hne, num_inj; congruence. }
  assert (En : length pts = n) by (rewrite (Permutation_length H3), seq_length; reflexivity).
  rewrite E. rewrite <- En at 1. eapply share_fair; eauto.
  - apply (Permutation_NoDup (Permutation_sym H3)), seq_NoDup.
  - intros p Hin. apply (Permutation_in _ H3), in_seq in Hin. lia.
Qed.

Lemma made_equal k vp : k < 32 -> make_partition sort choose m dist n (2 ^ N.of_nat k) = Partition vp ->
  (forall i j, dist i j = dist 0 0) -> forall p, region dist vp p = Some 0.
Proof.
  intros Hk H He p. destruct (made_shape k vp Hk H) as (t & pts & H1 & H2 & H3 & H4 & H5 & _ & _ & Hn).
  destruct (region_walk F dist k vp t p H2 H5 H4) as [_ ->]. f_equal.
  eapply walk_equal; eauto. apply HD; pose proof (pow2_pos k); lia.
Qed.
End Made.

(** *** Every partition, valid or not, sends every event to a region with a file *)
Section AnyPartition.
Context (F : NumOps) (P : Type) (dist : P -> P -> F) (vp : list (Bisection F P)) (q : P).
Lemma region_loop_any fuel : forall idx, length vp <= idx + fuel -> idx <= 2 * length vp ->
  exists i, region_loop fuel dist vp q idx = Some i /\ i < length vp + 1.
Proof.
  induction fuel as [|fuel IH]; intros idx H1 H2; cbn [region_loop].
  - rewrite (proj2 (nth_error_None vp idx)) by lia. eexists. split; [reflexivity|lia].
  - destruct (nth_error vp idx) as [b|] eqn:E; [|eexists; split; [reflexivity|lia]].
    assert (idx < length vp) by (apply nth_error_Some; congruence). apply IH; destruct (nleb _ _); lia.
Qed.
Lemma region_any : exists i, region dist vp q = Some i /\ i < length vp + 1.
Proof. apply region_loop_any; lia. Qed.
End AnyPartition.

(** *** Vantage points as events *)
Section Events.
Context (N : NumOps) (mw : bool).
Implicit Types (evs : list (Event N)) (vp : list (Bisection N nat)).

Definition as_events evs (b : Bisection N nat) : Bisection N (Event N) := mkBis (nth (b_pt b) evs (default_event mw)) (b_r b).

Lemma set_nth_spec {A} i (x : A) : forall l, i < length l -> exists l', set_nth i x l = Some l' /\ length l' = length l /\
  forall j d, nth j l' d = if j =? i then x else nth j l d.
Proof.
  induction i as [|i IH]; intros [|y l] Hi; cbn in Hi; try lia.
  - exists (x :: l). split; auto. split; auto. intros [|j] d; reflexivity.
  - destruct (IH l) as (l' & H1 & H2 & H3); [lia|]. exists (y :: l'). cbn. rewrite H1. split; auto. split; [lia|].
    intros [|j] d; [reflexivity|]. apply H3.
Qed.

Lemma take_events_spec vp : forall evs, NoDup (map b_pt vp) -> (forall b, In b vp -> b_pt b < length evs) ->
  take_events mw evs vp = Some (map (as_events evs) vp).
Proof.
  induction vp as [|b vp IH]; intros evs Hn Hlt; [reflexivity|]. cbn [take_events map].
  inversion Hn as [|? ? Hb Hn']; subst. pose proof (Hlt b (or_introl eq_refl)) as Lb.
  destruct (set_nth_spec (b_pt b) (default_event mw) evs Lb) as (evs' & E1 & E2 & E3).
  destruct (nth_error evs (b_pt b)) as [ev|] eqn:E; [|apply nth_error_None in E; lia]. rewrite E1, IH; auto.
  - f_equal. f_equal.
    + unfold as_events. f_equal. symmetry. apply nth_error_nth. exact E.
    + apply map_ext_in. intros b' Hb'. unfold as_events. f_equal. rewrite E3. destruct (Nat.eqb_spec (b_pt b') (b_pt b)) as [e|]; [|reflexivity].
      exfalso. apply Hb. rewrite <- e. apply in_map. exact Hb'.
  - intros b' Hb'. rewrite E2. apply Hlt. right. exact Hb'.
Qed.

Lemma region_events (dist : Event N -> Event N -> N) evs vp i :
  region dist (map (as_events evs) vp) (nth i evs (default_event mw)) = region (index_dist mw dist evs) vp i.
Proof.
  unfold region. rewrite map_length. generalize (length vp) as fuel. intros fuel. generalize 0 as idx.
  induction fuel as [|fuel IH]; intros idx; cbn [region_loop]; rewrite nth_error_map; destruct (nth_error vp idx) as [b|]; cbn [option_map];
    rewrite ?map_length; auto.
Qed.
End Events.
