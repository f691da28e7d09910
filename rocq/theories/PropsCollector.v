(** Properties C41, C42, C49-C51: the cell collector and the cell observer. *)
From Verif Require Import Base BaseProofs Num ModelCollector SpecCollector CollectorProofs CollectorProofs2.
From Coq Require Import ZArith.
Open Scope nat_scope.

(** C41.  After any sequence of cells, whatever random numbers were drawn, the collector
    holds the first ten cells, ten different cells, and the ten largest ones by radius, by
    number of members and by weight. *)
Theorem C41_collection : forall (N : NumOps) (D : N -> Prop) (draw : nat -> nat) (cs : list (CellInfo N)),
  order_on N D -> (forall c, In c cs -> D (c_radius c) /\ D (c_weight c)) ->
  exists c, collect_all draw 0 cs co_new = Some c /\ good_collection cs c.
Proof.
  intros N D draw cs HN Hd.
  destruct (@collect_all_inv N D HN draw cs [] 0 co_new) as (c & E & I); auto.
  - apply Forall_forall. exact Hd.
  - apply coll_inv_new.
  - exists c. split; auto. exact (coll_inv_good I).
Qed.
Print Assumptions C41_collection.

(** The randomly selected cells: of all sequences of draws, the fraction that selects cell
    [i] is 10 / (number of cells), for every [i]. *)
Theorem C41_random_uniform : forall (N : NumOps) (D : N -> Prop) (cs : list (CellInfo N)) i,
  order_on N D -> (forall c, In c cs -> D (c_radius c) /\ D (c_weight c)) ->
  i < length cs -> 10 <= length cs ->
  let selects ds := match collect_all (fun k => nth k ds 0) 0 cs co_new with
                    | Some c => existsb (Nat.eqb i) (map fst (co_random c))
                    | None => false
                    end in
  length cs * length (filter selects (all_draws (length cs))) = 10 * length (all_draws (length cs)).
Proof.
  intros N D cs i HN Hd Hi Hl selects. apply (@uniform N D HN i cs); auto. apply Forall_forall. exact Hd.
Qed.
Print Assumptions C41_random_uniform.

(** Twelve cells with radii 5, 1, 2, ..., 11; the random numbers drawn for the last two are 3
    and 11. *)
Definition num64 (z : Z) : B64 := b64_of_Z z.
Definition cell (r w : Z) (ids : list nat) : CellInfo B64 := mkCell (num64 r) (num64 w) ids.
Definition twelve : list (CellInfo B64) :=
  cell 5 1 [100; 101] :: map (fun n => cell (Z.of_nat n) (- Z.of_nat n) (seq (10 * n) n)) (seq 1 11).
Definition twelve_collected : Collector B64 := Eval vm_compute in
  match collect_all (fun n => if n =? 10 then 3 else 11) 0 twelve co_new with Some c => c | None => co_new end.
Example C41_case :
  (collect_all (fun n => if n =? 10 then 3 else 11) 0 twelve co_new = Some twelve_collected) /\
  (map (fun e => snd (fst e)) (co_radius twelve_collected) = [3; 4; 0; 5; 6; 7; 8; 9; 10; 11]) /\
  (map (fun e => snd (fst e)) (co_weight twelve_collected) = [9; 8; 7; 6; 5; 4; 3; 2; 1; 0]) /\
  (map fst (co_random twelve_collected) = [0; 1; 2; 10; 4; 5; 6; 7; 8; 9]) /\
  order_on B64 not_nan /\ (forall c, In c twelve -> not_nan (c_radius c) /\ not_nan (c_weight c)).
Proof.
  split; [vmr|]. split; [vmr|]. split; [vmr|]. split; [vmr|]. split; [exact B64_order|].
  intros c Hc. repeat (destruct Hc as [<-|Hc]; [split; vm_compute; discriminate|]). destruct Hc.
Qed.

(** C42.  Two collectors combined.  The count and the randomly selected cells are as if one
    collector had seen all cells. *)
Theorem C42_count_random : forall (N : NumOps) (D : N -> Prop) draw1 draw2 pick (cs1 cs2 : list (CellInfo N)) c1 c2,
  order_on N D -> (forall c, In c (cs1 ++ cs2) -> D (c_radius c) /\ D (c_weight c)) ->
  (forall n, 0 < n -> pick n < n) ->
  collect_all draw1 0 cs1 co_new = Some c1 -> collect_all draw2 0 cs2 co_new = Some c2 ->
  exists c, combine c1 c2 pick = Some c /\ co_count c = length (cs1 ++ cs2) /\ ten_different (cs1 ++ cs2) (co_random c).
Proof.
  intros N D draw1 draw2 pick cs1 cs2 c1 c2 HN Hd Hp E1 E2.
  assert (F1 : Forall (cell_dom D) cs1) by (apply Forall_forall; intros; apply Hd, in_or_app; auto).
  assert (F2 : Forall (cell_dom D) cs2) by (apply Forall_forall; intros; apply Hd, in_or_app; auto).
  destruct (@collect_all_inv N D HN draw1 cs1 [] 0 co_new) as (c1' & E1' & I1); auto; [apply coll_inv_new|].
  destruct (@collect_all_inv N D HN draw2 cs2 [] 0 co_new) as (c2' & E2' & I2); auto; [apply coll_inv_new|].
  assert (c1' = c1) by congruence. assert (c2' = c2) by congruence. subst.
  destruct (combine_weak Hp (coll_weak I1) (coll_weak I2)) as (c & E & C & T). exists c. auto.
Qed.
Print Assumptions C42_count_random.

(** With ten cells in total (or fewer) the combined collector lists all of them. *)
Theorem C42_few_cells_partial : forall (N : NumOps) (D : N -> Prop) draw1 draw2 pick (cs1 cs2 : list (CellInfo N)) c1 c2 c,
  order_on N D -> (forall c, In c (cs1 ++ cs2) -> D (c_radius c) /\ D (c_weight c)) ->
  length cs1 + length cs2 <= 10 ->
  collect_all draw1 0 cs1 co_new = Some c1 -> collect_all draw2 0 cs2 co_new = Some c2 ->
  combine c1 c2 pick = Some c ->
  ten_largest nltb c_radius (cs1 ++ cs2) (co_radius c) /\
  ten_largest Nat.ltb (fun x => length (c_ids x)) (cs1 ++ cs2) (co_members c) /\
  ten_largest nltb c_weight (cs1 ++ cs2) (co_weight c).
Proof.
  intros N D draw1 draw2 pick cs1 cs2 c1 c2 c HN Hd Hle E1 E2 E.
  assert (F1 : Forall (cell_dom D) cs1) by (apply Forall_forall; intros; apply Hd, in_or_app; auto).
  assert (F2 : Forall (cell_dom D) cs2) by (apply Forall_forall; intros; apply Hd, in_or_app; auto).
  destruct (@collect_all_inv N D HN draw1 cs1 [] 0 co_new) as (c1' & E1' & I1); auto; [apply coll_inv_new|].
  destruct (@collect_all_inv N D HN draw2 cs2 [] 0 co_new) as (c2' & E2' & I2); auto; [apply coll_inv_new|].
  assert (c1' = c1) by congruence. assert (c2' = c2) by congruence. subst. cbn [app] in *.
  destruct HN as [Htp Hlt].
  destruct I1 as (C1 & _ & _ & R1 & M1 & W1), I2 as (C2 & _ & _ & R2 & M2 & W2).
  unfold combine in E. destruct (shrink _ _ _); [|discriminate]. injection E as <-. cbn [co_radius co_members co_weight].
  rewrite C1. split; [|split].
  - exact (combine_table_few Htp Hlt R1 R2 Hle).
  - exact (combine_table_few nat_tp nat_lt M1 M2 Hle).
  - exact (combine_table_few Htp Hlt W1 W2 Hle).
Qed.
Print Assumptions C42_few_cells_partial.

(** What the combined collector lists otherwise: of the cells listed by either collector the
    ten with the smallest values.  Here for the radius. *)
Theorem C42_smallest_kept : forall (N : NumOps) (D : N -> Prop) draw1 draw2 pick (cs1 cs2 : list (CellInfo N)) c1 c2 c,
  order_on N D -> (forall c, In c (cs1 ++ cs2) -> D (c_radius c) /\ D (c_weight c)) ->
  collect_all draw1 0 cs1 co_new = Some c1 -> collect_all draw2 0 cs2 co_new = Some c2 ->
  combine c1 c2 pick = Some c ->
  let both := co_radius c1 ++ map (fun '((r, i), ids) => ((r, i + length cs1), ids)) (co_radius c2) in
  exists dropped, Permutation both (co_radius c ++ dropped) /\
    length (co_radius c) = Nat.min 10 (length both) /\
    (forall kept lost, In kept (co_radius c) -> In lost dropped -> nltb (fst (fst lost)) (fst (fst kept)) = false).
Proof.
  intros N D draw1 draw2 pick cs1 cs2 c1 c2 c HN Hd E1 E2 E both.
  assert (F1 : Forall (cell_dom D) cs1) by (apply Forall_forall; intros; apply Hd, in_or_app; auto).
  assert (F2 : Forall (cell_dom D) cs2) by (apply Forall_forall; intros; apply Hd, in_or_app; auto).
  destruct (@collect_all_inv N D HN draw1 cs1 [] 0 co_new) as (c1' & E1' & I1); auto; [apply coll_inv_new|].
  destruct (@collect_all_inv N D HN draw2 cs2 [] 0 co_new) as (c2' & E2' & I2); auto; [apply coll_inv_new|].
  assert (c1' = c1) by congruence. assert (c2' = c2) by congruence. subst. cbn [app] in *.
  destruct HN as [Htp Hlt].
  destruct I1 as (C1 & _ & _ & R1 & M1 & W1), I2 as (C2 & _ & _ & R2 & M2 & W2).
  unfold combine in E. destruct (shrink _ _ _); [|discriminate]. injection E as <-. cbn [co_radius].
  rewrite C1. destruct (combine_table_spec Htp Hlt R1 R2) as (dr & P & L & K). exists dr.
  assert (B : both = co_radius c1 ++ shifted (length cs1) (co_radius c2)).
  { unfold both, shifted. f_equal. apply map_ext. intros [[r i] ids]. reflexivity. }
  rewrite B. split; [exact P|]. split; [|exact K].
  etransitivity; [exact L|]. f_equal. rewrite app_length. unfold shifted. rewrite map_length. reflexivity.
Qed.
Print Assumptions C42_smallest_kept.

(** Hence the property is false: of ten cells with radii 1..10 in one thread and one with
    radius 100 in another, the one with the largest radius is not listed. *)
Definition ten_small : list (CellInfo B64) := map (fun n => cell (Z.of_nat n) 1 [n]) (seq 1 10).
Definition one_large : list (CellInfo B64) := [cell 100 1 [100]].
Definition small_coll : Collector B64 := Eval vm_compute in
  match collect_all (fun _ => 0) 0 ten_small co_new with Some c => c | None => co_new end.
Definition large_coll : Collector B64 := Eval vm_compute in
  match collect_all (fun _ => 0) 0 one_large co_new with Some c => c | None => co_new end.
Definition merged : Collector B64 := Eval vm_compute in
  match combine small_coll large_coll (fun _ => 0) with Some c => c | None => co_new end.
Theorem C42_refuted : exists (cs1 cs2 : list (CellInfo B64)) c1 c2 c,
  collect_all (fun _ => 0) 0 cs1 co_new = Some c1 /\ collect_all (fun _ => 0) 0 cs2 co_new = Some c2 /\
  combine c1 c2 (fun _ => 0) = Some c /\
  ~ ten_largest nltb c_radius (cs1 ++ cs2) (co_radius c).
Proof.
  exists ten_small, one_large, small_coll, large_coll, merged.
  split; [vmr|]. split; [vmr|]. split; [vmr|].
  intros (_ & _ & _ & H).
  assert (E : nth_error (ten_small ++ one_large) 10 = Some (cell 100 1 [100])) by reflexivity.
  assert (Hn : ~ In 10 (map (fun e => snd (fst e)) (co_radius merged))).
  { replace (map (fun e => snd (fst e)) (co_radius merged)) with (seq 0 10) by vmr. rewrite in_seq. lia. }
  assert (Hin : In ((fst (fst (hd ((n0, 0), []) (co_radius merged))), 0), [1]) (co_radius merged)) by (left; reflexivity).
  specialize (H 10 _ E Hn _ _ _ Hin).
  assert (T : nltb (fst (fst (hd ((@n0 B64, 0), []) (co_radius merged)))) (c_radius (cell 100 1 [100])) = true) by vmr.
  rewrite T in H. discriminate.
Qed.
Print Assumptions C42_refuted.

(** C49.  [event_cells]: every event id is mapped to exactly the numbers of those saved cells
    that contain the event. *)
Theorem C49_event_cells : forall (N : NumOps) (c : Collector N) (event n : nat),
  In n (event_cells c event) <-> exists ids, holds c n ids /\ In event ids.
Proof.
  intros N c event n.
  assert (K1 : forall ids m cell, In n (fold_left (fun m id => push_entry m id cell) ids m event) <->
    In n (m event) \/ (n = cell /\ In event ids)).
  { induction ids as [|id ids IH]; intros m cl; cbn [fold_left]; [cbn; tauto|]. rewrite IH. unfold push_entry. cbn [In].
    destruct (Nat.eqb_spec event id) as [->|Hn]; [rewrite in_app_iff; cbn; intuition|intuition congruence]. }
  assert (K2 : forall l m, In n (fold_left (fun m '(cell, ids) => fold_left (fun m id => push_entry m id cell) ids m) l m event) <->
    In n (m event) \/ exists ids, In (n, ids) l /\ In event ids).
  { induction l as [|[cl ids] l IH]; intros m; cbn [fold_left].
    - split; [auto|]. intros [?|(? & [] & _)]; auto.
    - rewrite IH, K1. split.
      + intros [[?|[-> H]]|(i & H & H')]; auto; right; [exists ids; split; auto; left; auto|exists i; split; auto; right; auto].
      + intros [?|(i & [[= -> ->]|H] & H')]; auto. right. exists i. auto. }
  unfold event_cells. rewrite K2. cbn [In]. unfold saved_cells, holds. split.
  - intros [[]|(ids & H & Hi)]. exists ids. split; auto.
    rewrite !in_app_iff, !in_map_iff in H.
    destruct H as [H|[H|[(((v, i), x) & [= <- <-] & H)|[(((v, i), x) & [= <- <-] & H)|(((v, i), x) & [= <- <-] & H)]]]]; eauto 7.
  - intros (ids & H & Hi). right. exists ids. split; auto. rewrite !in_app_iff, !in_map_iff.
    destruct H as [H|[H|[(v & H)|[(v & H)|(v & H)]]]]; auto.
    + right. right. left. exists ((v, n), ids). auto.
    + right. right. right. left. exists ((v, n), ids). auto.
    + right. right. right. right. exists ((v, n), ids). auto.
Qed.
Print Assumptions C49_event_cells.

Example C49_case : event_cells twelve_collected 100 = [0; 0; 10; 0; 10; 10; 0] /\ event_cells twelve_collected 110 = [11; 11]
  /\ event_cells twelve_collected 7 = [].
Proof. split; [vmr|]. split; vmr. Qed.

(** C50.  However the cells of a run are distributed over threads, and in whatever order the
    threads are combined, the observer reports the number of cells, the number of cells with
    negative weight and the median radius, and its collector has counted all cells and lists ten
    different ones as randomly selected.  If there are no cells nothing is reported. *)
Theorem C50_report : forall (N : NumOps) (D : N -> Prop) sort draw pick (parts : list (list (CellInfo N))),
  order_on N D -> sort_ok sort -> (forall p c, In p parts -> In c p -> D (c_radius c) /\ D (c_weight c)) ->
  (forall i n, 0 < n -> pick i n < n) ->
  let cells := concat parts in
  exists d report, run_observer sort (mkObs [] (Some co_new) 0) draw pick parts = Some (d, report) /\
    (cells = [] -> report = None) /\
    (cells <> [] -> exists m c, report = Some (mkRep (length cells) (length (filter (fun c => nltb (c_weight c) n0) cells)) m) /\
       is_median (map c_radius cells) m /\
       o_collector d = Some c /\ co_count c = length cells /\ ten_different cells (co_random c)).
Proof.
  intros N D sort draw pick parts HN Hs Hd Hp cells.
  destruct (@run_observer_spec N D HN sort Hs true (Some co_new) draw pick parts) as (d & rep & E & H1 & H2); auto.
  { apply Forall_forall. intros p Hp'. apply Forall_forall. intros c Hc. eapply Hd; eauto. }
  exists d, rep. split; auto. split; [intros H; apply H1; auto|].
  intros H. destruct (H2 H) as (m & s & R & P & O & M & C). destruct (o_collector d) as [c|]; [|discriminate].
  exists m, c. split; auto. split; [|destruct C as (_ & C1 & C2); auto].
  exists s. repeat split; auto. rewrite map_length. auto.
Qed.
Print Assumptions C50_report.

Definition two_threads : list (list (CellInfo B64)) := [[cell 5 (-1) [1]; cell 1 2 [2]]; []; [cell 3 4 [3]]].
Example C50_case : exists d, run_observer isort (mkObs [] (Some co_new) 0) (fun _ _ => 0) (fun _ _ => 0) two_threads =
  Some (d, Some (mkRep 3 1 (num64 3))).
Proof.
  let r := eval vm_compute in (run_observer isort (mkObs [] (Some co_new) 0) (fun _ _ => 0) (fun _ _ => 0) two_threads) in
  match r with Some (?a, _) => exists a end. vmr.
Qed.

(** C51.  A collector used for several runs.  With one thread it is the same as if all cells had
    been created in a single run. *)
Theorem C51_one_thread_partial : forall (N : NumOps) (D : N -> Prop) sort draw1 pick1 draw2 pick2 (cs1 cs2 : list (CellInfo N)),
  order_on N D -> sort_ok sort -> (forall c, In c (cs1 ++ cs2) -> D (c_radius c) /\ D (c_weight c)) ->
  exists c1 c2, resample_collector sort co_new draw1 pick1 [cs1] = Some c1 /\
    resample_collector sort c1 draw2 pick2 [cs2] = Some c2 /\ good_collection (cs1 ++ cs2) c2.
Proof.
  intros N D sort draw1 pick1 draw2 pick2 cs1 cs2 HN Hs Hd.
  assert (F1 : Forall (cell_dom D) cs1) by (apply Forall_forall; intros; apply Hd, in_or_app; auto).
  assert (F2 : Forall (cell_dom D) cs2) by (apply Forall_forall; intros; apply Hd, in_or_app; auto).
  destruct (@resample_one N D HN sort Hs [] cs1 co_new draw1 pick1 (@coll_inv_new N D) (Forall_nil _) F1) as (c1 & E1 & I1).
  destruct (@resample_one N D HN sort Hs cs1 cs2 c1 draw2 pick2 I1 F1 F2) as (c2 & E2 & I2).
  exists c1, c2. split; auto. split; auto. exact (coll_inv_good I2).
Qed.
Print Assumptions C51_one_thread_partial.

(** With two threads the cells of the first run are counted once per thread of the second run,
    and may be listed several times.  Here: one cell in the first run, one in each of two
    threads in the second run. *)
Definition reused_first : Collector B64 := Eval vm_compute in
  match resample_collector isort co_new (fun _ _ => 0) (fun _ _ => 0) [[cell 5 1 [1]]] with Some c => c | None => co_new end.
Definition reused : Collector B64 := Eval vm_compute in
  match resample_collector isort reused_first (fun _ _ => 0) (fun _ _ => 0) [[cell 3 1 [2]]; [cell 4 1 [3]]] with Some c => c | None => co_new end.
Theorem C51_refuted : exists (cells1 : list (CellInfo B64)) (parts2 : list (list (CellInfo B64))) c1 c2,
  resample_collector isort co_new (fun _ _ => 0) (fun _ _ => 0) [cells1] = Some c1 /\
  resample_collector isort c1 (fun _ _ => 0) (fun _ _ => 0) parts2 = Some c2 /\
  length (cells1 ++ concat parts2) = 3 /\ co_count c2 = 4 /\ map snd (co_random c2) = [[1]; [2]; [1]; [3]].
Proof.
  exists [cell 5 1 [1]], [[cell 3 1 [2]]; [cell 4 1 [3]]], reused_first, reused.
  split; [vmr|]. split; [vmr|]. split; [reflexivity|]. split; vmr.
Qed.
Print Assumptions C51_refuted.
