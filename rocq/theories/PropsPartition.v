(** C38-C40, C43: partitions. *)
From Coq Require Import NArith ZArith.
From Verif Require Import Base BaseProofs Num ModelNaive ModelVPTree ModelResampler ModelPartition SpecTree SpecPartition
  SeedsProofs NaiveProofs VPTreeProofs PartitionProofs.

(** C43.  [log2] of a 32-bit number is its logarithm rounded down; [log2 0] panics. *)
Lemma log2_u32_spec (n : N) : (1 <= n < 2 ^ 32)%N ->
  exists k, log2_u32 n = Some k /\ (2 ^ k <= n < 2 ^ (k + 1))%N /\ (k < 32)%N.
Proof.
  intros Hn. unfold log2_u32, leading_zeros32. destruct n as [|p]; [lia|].
  assert (Hs : N.size (N.pos p) = N.succ (N.log2 (N.pos p))) by (apply N.size_log2; discriminate).
  pose proof (N.log2_spec (N.pos p) ltac:(lia)) as Hl.
  assert (Hk : (N.log2 (N.pos p) < 32)%N) by (apply N.log2_lt_pow2; lia).
  rewrite Hs. exists (N.log2 (N.pos p)).
  replace (32 - (32 - N.succ (N.log2 (N.pos p))))%N with (N.succ (N.log2 (N.pos p))) by lia.
  destruct (N.eqb_spec (N.succ (N.log2 (N.pos p))) 0); [lia|]. rewrite N.add_1_r. split; [f_equal; lia|]. split; auto.
Qed.

Theorem C43_log2 : forall n : N, (1 <= n < 2 ^ 32)%N ->
  exists k, log2_u32 n = Some k /\ (2 ^ k <= n < 2 ^ (k + 1))%N.
Proof. intros n H. destruct (log2_u32_spec n H) as (k & H1 & H2 & _). eauto. Qed.
Print Assumptions C43_log2.

Theorem C43_log2_of_zero_panics : log2_u32 0 = None.
Proof. reflexivity. Qed.

Example C43_case : map log2_u32 [1; 2; 3; 4; 1000; 4294967295]%N = map Some [0; 1; 1; 2; 9; 31]%N.
Proof. reflexivity. Qed.

(** C38.  For every array of [2^k - 1] bisections, distance and event, [region] returns an
    index below [2^k], the number of regions, after [k] comparisons: the index has the
    binary digits of a path of [k] steps, and its [j]-th digit tells whether the event is
    further away (1) or not (0) than the radius of the bisection reached by the preceding
    steps. *)
Theorem C38_region : forall (F : NumOps) (P : Type) (dist : P -> P -> F) (vp : list (Bisection F P)) k (q : P),
  length vp + 1 = 2 ^ k ->
  exists path, length path = k /\ region dist vp q = Some (num path) /\ num path < partition_len vp /\
    forall j b, nth_error path j = Some b ->
      exists bis, nth_error vp (2 ^ j - 1 + num (firstn j path)) = Some bis /\
        b = negb (nleb (dist (b_pt bis) q) (b_r bis)).
Proof.
  intros F P dist vp k q H. destruct (@region_spec F P dist vp k q H) as (path & H1 & H2 & H3).
  exists path. split; auto. split; auto. split; [|exact H3].
  unfold partition_len. rewrite H, <- H1. apply num_lt.
Qed.
Print Assumptions C38_region.

(** Only such arrays are accepted. *)
Theorem C38_constructor : forall (F : NumOps) (P : Type) (vp : list (Bisection F P)),
  (forall vp', from_vp vp = Some vp' <-> vp' = vp /\ exists k, length vp + 1 = 2 ^ k).
Proof.
  intros F P vp vp'. unfold from_vp. destruct (is_power_of_two (length vp + 1)) eqn:E.
  - split.
    + intros H. injection H as <-. split; auto. unfold is_power_of_two in E. apply andb_prop in E. destruct E as [_ E].
      apply Nat.eqb_eq in E. eauto.
    + intros [-> _]. auto.
  - split; [discriminate|]. intros [_ [k Hk]]. rewrite Hk, pow2_is in E. discriminate.
Qed.
Print Assumptions C38_constructor.

(** Points on a line, bisections at 0 (radius 5), 1 (radius 2), 10 (radius 3). *)
Example C38_case :
  let z := b64_of_Z in
  let dist (a b : Z) : B64 := z (Z.abs (a - b)) in
  let vp := [mkBis 0%Z (z 5%Z : B64); mkBis 1%Z (z 2%Z : B64); mkBis 10%Z (z 3%Z : B64)] in
  length vp + 1 = 2 ^ 2 /\ map (region dist vp) [0; 3; 4; 5; 6; 7; 13; 20]%Z
   = map Some [0; 0; 1; 1; 3; 2; 2; 3].
Proof. split; [reflexivity|vmr]. Qed.

Section Construct.
Context (F : NumOps) (D : F -> Prop) (Hord : order_on F D) (sort : sorter) (Hsort : sort_ok sort)
  (choose : chooser) (Hchoose : choose_ok choose) (m : nat) (Hm : 2 <= m) (dist : nat -> nat -> F) (n : nat)
  (HD : forall i j, i < n -> j < n -> D (dist i j)).

Lemma construct k : 0 < n -> (k < 32)%nat -> 2 ^ k <= n ->
  exists t vp nodes, shape dist k (map (@vantage_pt F) nodes) t /\ Permutation (seq 0 n) (map (@vantage_pt F) nodes) /\
    length vp = count n k /\ (full k t -> vp = levels k [t]) /\
    make_partition sort choose m dist n (2 ^ N.of_nat k) =
      match from_vp vp with Some vp => Partition vp | None => Crash end.
Proof.
  intros Hn Hk Hle. unfold make_partition.
  assert (Hpow : (2 ^ N.of_nat k)%N = N.of_nat (2 ^ k)).
  { clear. induction k; [reflexivity|]. rewrite Nat.pow_succ_r', Nat2N.inj_succ, N.pow_succ_r', IHk. lia. }
  destruct (N.ltb_spec (N.of_nat n) (2 ^ N.of_nat k)) as [Hlt|_]; [rewrite Hpow in Hlt; lia|].
  destruct (log2_u32_spec (2 ^ N.of_nat k)) as (k' & -> & Hk' & _).
  { split; [rewrite Hpow; pose proof (pow2_pos k); lia|]. apply N.pow_lt_mono_r; lia. }
  assert (k' = N.of_nat k) as ->.
  { destruct Hk' as [A B]. apply N.pow_le_mono_r_iff in A; [|lia]. apply N.pow_lt_mono_r_iff in B; [|lia]. lia. }
  rewrite par_tree_eq by auto.
  destruct (@tree_of_spec F D Hord sort Hsort dist choose Hchoose (N.of_nat k) (seq 0 n)) as (nodes & -> & Hp & Ht).
  { intros p q Hp Hq. apply in_seq in Hp, Hq. apply HD; lia. }
  assert (Hl : length nodes = n).
  { apply Permutation_length in Hp. rewrite seq_length in Hp. rewrite map_length in Hp. auto. }
  destruct (@to_partition_spec F dist (N.of_nat k) nodes Ht) as (t & vp & H1 & H2 & H3 & H4).
  { intros ->. cbn in Hl. lia. }
  rewrite Nat2N.id in *. exists t, vp, nodes. rewrite Hl in H2. repeat (split; auto). rewrite H3. reflexivity.
Qed.

Lemma construct_ok k : (k < 32)%nat -> 2 ^ k <= n -> (k = 0 \/ 3 * 2 ^ (k - 1) - 1 <= n) ->
  exists t vp, make_partition sort choose m dist n (2 ^ N.of_nat k) = Partition vp /\
    partition_len vp = 2 ^ k /\ balanced dist k t /\ Permutation (points t) (seq 0 n) /\ heap_order vp 0 t.
Proof.
  intros Hk Hle Hb. assert (Hn : 0 < n) by (pose proof (pow2_pos k); lia).
  destruct (construct k Hn Hk Hle) as (t & vp & nodes & H1 & H2 & H3 & H4 & H5).
  assert (Hl : length (map (@vantage_pt F) nodes) = n).
  { apply Permutation_length in H2. rewrite seq_length in H2. auto. }
  assert (Hf : full k t) by (eapply shape_full; eauto; rewrite Hl; auto).
  exists t, vp. pose proof (full_forks Hf) as Hff. rewrite (shape_count H1), Hl, <- H3 in Hff.
  split; [|split; [exact Hff|split; [eapply shape_balanced; eauto|split]]].
  - rewrite H5. unfold from_vp. rewrite Hff, pow2_is. reflexivity.
  - rewrite (shape_points H1). apply Permutation_sym. auto.
  - rewrite (H4 Hf). apply full_heap. auto.
Qed.

Lemma construct_crash k : (k < 32)%nat -> 2 ^ k <= n -> 0 < k -> n < 3 * 2 ^ (k - 1) - 1 ->
  make_partition sort choose m dist n (2 ^ N.of_nat k) = Crash.
Proof.
  intros Hk Hle Hk0 Hn. destruct k as [|k]; [lia|]. replace (S k - 1) with k in Hn by lia.
  assert (Hn0 : 0 < n) by (pose proof (pow2_pos (S k)); lia).
  destruct (construct (S k) Hn0 Hk Hle) as (t & vp & nodes & H1 & H2 & H3 & H4 & H5).
  rewrite H5. unfold from_vp. rewrite H3, count_low, (@not_pow2 k); auto.
  - rewrite Nat.pow_succ_r' in *. lia.
  - rewrite Nat.pow_succ_r' in *. lia.
Qed.
End Construct.

(** C39.  [cres-partition] for 2^k regions.  Too few events are reported.  With at least
    3 2^(k-1) - 1 events (k >= 1; one event for k = 0) the partition into 2^k regions is
    constructed.  For every number of events in between the program crashes, whatever the
    events are.  Hence the property as stated is false. *)
Theorem C39_construction_partial :
  forall (F : NumOps) (D : F -> Prop) sort choose m (dist : nat -> nat -> F) n k,
  order_on F D -> sort_ok sort -> choose_ok choose -> 2 <= m ->
  (forall i j, i < n -> j < n -> D (dist i j)) -> k < 32 ->
  let result := make_partition sort choose m dist n (2 ^ N.of_nat k) in
  (n < 2 ^ k -> result = TooFew) /\
  (2 ^ k <= n -> k = 0 \/ 3 * 2 ^ (k - 1) - 1 <= n -> exists vp, result = Partition vp /\ partition_len vp = 2 ^ k) /\
  (2 ^ k <= n -> 0 < k -> n < 3 * 2 ^ (k - 1) - 1 -> result = Crash).
Proof.
  intros F D sort choose m dist n k H1 H2 H3 H4 H5 H6 result. split; [|split].
  - intros H. unfold result, make_partition.
    assert (Hpow : (2 ^ N.of_nat k)%N = N.of_nat (2 ^ k)).
    { clear. induction k; [reflexivity|]. rewrite Nat.pow_succ_r', Nat2N.inj_succ, N.pow_succ_r', IHk. lia. }
    destruct (N.ltb_spec (N.of_nat n) (2 ^ N.of_nat k)) as [_|Hlt]; [auto|]. rewrite Hpow in Hlt. lia.
  - intros Hle Hb. destruct (construct_ok F D H1 sort H2 choose H3 m H4 dist n H5 k H6 Hle Hb) as (t & vp & E & L & _).
    exists vp. auto.
  - intros Hle Hk Hn. eapply construct_crash; eauto.
Qed.
Print Assumptions C39_construction_partial.

Definition line4 (i j : nat) : B64 := b64_of_Z (Z.abs (Z.of_nat i - Z.of_nat j)).

Theorem C39_refuted : exists n (k : nat), 2 ^ k <= n /\
  make_partition isort first_min 1000 line4 n (2 ^ N.of_nat k) = Crash.
Proof. exists 4, 2. split; [cbn; lia|vmr]. Qed.
Print Assumptions C39_refuted.

(** Five events on a line are enough for four regions; the theorem's hypotheses hold of them. *)
Definition line5_vp : list (Bisection B64 nat) := Eval vm_compute in
  match make_partition isort first_min 1000 line4 5 4 with Partition vp => vp | _ => [] end.
Example C39_case :
  (make_partition isort first_min 1000 line4 5 4 = Partition line5_vp) /\ (length line5_vp = 3) /\
  (2 ^ 2 <= 5) /\ (3 * 2 ^ (2 - 1) - 1 <= 5) /\
  order_on B64 not_nan /\ sort_ok isort /\ choose_ok first_min /\
  (forall i j, i < 5 -> j < 5 -> not_nan (line4 i j)).
Proof.
  split; [vmr|]. split; [vmr|]. split; [cbn; lia|]. split; [cbn; lia|].
  split; [exact B64_order|]. split; [exact isort_ok|]. split; [exact NaiveProofs.first_min_ok|].
  intros i j Hi Hj.
  destruct i as [|[|[|[|[|i]]]]]; [| | | | |lia];
  (destruct j as [|[|[|[|[|j]]]]]; [| | | | |lia]); (vm_compute; exact I) || (vm_compute; intro H; discriminate H) || (vm_compute; reflexivity).
Qed.

(** C40.  Whenever the construction succeeds, the bisections form a balanced tree with all
    the events, stored in heap order. *)
Theorem C40_heap_balanced :
  forall (F : NumOps) (D : F -> Prop) sort choose m (dist : nat -> nat -> F) n k vp,
  order_on F D -> sort_ok sort -> choose_ok choose -> 2 <= m ->
  (forall i j, i < n -> j < n -> D (dist i j)) -> k < 32 ->
  make_partition sort choose m dist n (2 ^ N.of_nat k) = Partition vp ->
  exists t, balanced dist k t /\ Permutation (points t) (seq 0 n) /\ heap_order vp 0 t /\ length vp + 1 = 2 ^ k.
Proof.
  intros F D sort choose m dist n k vp H1 H2 H3 H4 H5 H6 H.
  destruct (C39_construction_partial F D sort choose m dist n k H1 H2 H3 H4 H5 H6) as (A & _ & B).
  destruct (Nat.lt_ge_cases n (2 ^ k)) as [Hlt|Hle]; [rewrite A in H by auto; discriminate|].
  assert (Hb : k = 0 \/ 3 * 2 ^ (k - 1) - 1 <= n).
  { destruct (Nat.eq_dec k 0) as [|Hk]; auto. right. destruct (Nat.lt_ge_cases n (3 * 2 ^ (k - 1) - 1)); auto.
    rewrite B in H; auto; [discriminate|lia]. }
  destruct (construct_ok F D H1 sort H2 choose H3 m H4 dist n H5 k H6 Hle Hb) as (t & vp' & E & L & Bal & Hp & Hh).
  rewrite E in H. injection H as ->. exists t. auto.
Qed.
Print Assumptions C40_heap_balanced.

(** Every event that is not exactly at a dividing distance is assigned to the region it was
    counted for in the construction. *)
Theorem C40_region_of_events : forall (F : NumOps) (dist : nat -> nat -> F) k vp t path p,
  balanced dist k t -> length vp + 1 = 2 ^ k -> heap_order vp 0 t ->
  clearly_in dist t path p -> length path = k /\ region dist vp p = Some (num path).
Proof. exact region_clear. Qed.
Print Assumptions C40_region_of_events.

(** For an event exactly at the dividing distance this is false: construction counts it as
    outside, [region] as inside.  There always is such an event, the median.  Here: three
    events on a line. *)
Definition line3_vp : list (Bisection B64 nat) := Eval vm_compute in
  match make_partition isort first_min 1000 line4 3 2 with Partition vp => vp | _ => [] end.

Theorem C40_median_event_refuted : exists (dist : nat -> nat -> B64) n vp t path p,
  make_partition isort first_min 1000 dist n 2 = Partition vp /\
  balanced dist 1 t /\ Permutation (points t) (seq 0 n) /\ heap_order vp 0 t /\
  in_leaf t path p /\ length path = 1 /\ region dist vp p <> Some (num path).
Proof.
  exists line4, 3, line3_vp, (Fork 2 (b64_of_Z 2) (Leaf [1]) (Leaf [0])), [true], 0.
  split; [vmr|]. split.
  { constructor; try constructor; cbn; try lia; intros p [<-|[]]; vmr. }
  split. { cbn. apply perm_trans with [2; 0; 1]; [repeat constructor|]. apply perm_trans with [0; 2; 1]; repeat constructor. }
  split. { cbn. repeat split. }
  split. { cbn. auto. } split; [reflexivity|].
  assert (E : region line4 line3_vp 0 = Some 0) by vmr. rewrite E. discriminate.
Qed.
Print Assumptions C40_median_event_refuted.
