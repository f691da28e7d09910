(** Properties of a single cell: C01, C02, C03, C09, C10 (one cell / any list of cells), C13. *)
From Coq Require Import Reals Lra ZArith.
From Verif Require Import Base Num ModelEvent ModelCell SpecWeights SpecSearch CellProofs RunProofs
  RunProofs2.

(** C01: a cell consists of the seed and the first [k] neighbours; [k] is the first
    position at which the running sum of central weights is non-negative, or all
    neighbours if there is none.  Holds in every arithmetic, hence in binary64. *)
Theorem C01_cell : forall (N : NumOps) (ws : list (list N)) seed nbrs (c : Cell N),
  cell_new ws seed nbrs = Some c ->
  exists w0 k wts, central_weight ws seed w0 /\ k <= length nbrs /\
    Forall2 (central_weight ws) (map fst (firstn k nbrs)) wts /\
    members c = seed :: map fst (firstn k nbrs) /\
    weight_sum c = fold_left nadd wts w0 /\
    radius c = last (map snd (firstn k nbrs)) n0 /\
    (forall j, 0 < j < k -> nleb n0 (fold_left nadd (firstn j wts) w0) = false) /\
    (k < length nbrs -> 0 < k /\ nleb n0 (weight_sum c) = true).
Proof. exact cell_new_central. Qed.
Print Assumptions C01_cell.

(** The construction never fails on a sample in which every event has a weight. *)
Theorem C01_cell_exists : forall (N : NumOps) (ws : list (list N)) seed (nbrs : list (nat * N)),
  seed < length ws -> (forall i, In i (map fst nbrs) -> i < length ws) ->
  Forall (fun w => w <> []) ws -> exists c : Cell N, cell_new ws seed nbrs = Some c.
Proof. exact cell_new_total. Qed.
Print Assumptions C01_cell_exists.

(** ... and when the neighbours are the complete answer of a neighbour search, members are
    pairwise different, the radius is the largest distance from the seed to a member, it is
    attained, it is not above the limit, and no event outside is nearer than one inside. *)
Theorem C01_cell_geometry : forall (N : NumOps) (D : N -> Prop) (ws : list (list N)) n seed
    (dq : nat -> N) max nbrs (c : Cell N),
  order_on N D -> (forall i, i < n -> D (dq i)) ->
  nearest_list n seed dq max nbrs -> seed < n ->
  cell_new ws seed nbrs = Some c ->
  NoDup (members c) /\ In seed (members c) /\ (forall i, In i (members c) -> i < n) /\
  (forall i, In i (members c) -> i <> seed -> nleb (dq i) (radius c) = true) /\
  (length (members c) > 1 -> nleb (radius c) max = true /\
      exists i, In i (members c) /\ i <> seed /\ radius c = dq i) /\
  (forall i j, In i (members c) -> i <> seed -> j < n -> j <> seed -> ~ In j (members c) ->
      nleb (dq j) max = true -> nleb (dq i) (dq j) = true).
Proof. exact cell_geometry. Qed.
Print Assumptions C01_cell_geometry.

(** In exact arithmetic the recorded weight is the sum over the members. *)
Theorem C01_weight_sum : forall (ws : list (list R)) seed nbrs (c : Cell RN),
  cell_new ws seed nbrs = Some c ->
  weight_sum c = Rsum (map (fun i => comp ws i 0) (members c)).
Proof. exact cell_weight_sum. Qed.
Print Assumptions C01_weight_sum.

(** Concrete case: weights -5, 1, 2, 3, 9 (binary64), neighbours of event 0 in the order
    2, 1, 3, 4 with distances 1, 2, 4, 8: the cell is 0, 2, 1, 3 with sum 1 and radius 4. *)
Example C01_case :
  let z := b64_of_Z in
  cell_new (N := B64) [[z (-5)]; [z 1]; [z 2]; [z 3]; [z 9]]%Z 0
    [(2, z 1%Z); (1, z 2%Z); (3, z 4%Z); (4, z 8%Z)]
  = Some (mkCell [0; 2; 1; 3] (z 4%Z) (z 1%Z)).
Proof. vmr. Qed.

Example C01_geometry_case :
  let z := b64_of_Z in
  let dq := fun i => nth i (map z [0; 2; 1; 4; 8]%Z) (z 0%Z) in
  order_on B64 not_nan /\ (forall i, i < 5 -> not_nan (dq i)) /\
  nearest_list (N := B64) 5 0 dq (z 10%Z) [(2, z 1%Z); (1, z 2%Z); (3, z 4%Z); (4, z 8%Z)].
Proof.
  cbv zeta. split; [exact B64_order|split].
  - intros i Hi. do 5 (destruct i as [|i]; [vm_compute; discriminate|]). lia.
  - split; [|split; [|split]].
    + repeat constructor; cbn; intuition discriminate.
    + intros i. split.
      * cbn [map fst In]. intros [<-|[<-|[<-|[<-|[]]]]]; vm_compute; intuition (lia || discriminate).
      * intros (H1 & H2 & _). do 5 (destruct i as [|i]; [cbn; intuition lia|]). lia.
    + repeat constructor.
    + repeat constructor.
Qed.

(** C02: after resampling, every component of every member is the mean over the members of
    that component before; all other events, and all numbers of weights, are unchanged. *)
Theorem C02_resample_mean : forall mw (ws : list (list R)) (c : Cell RN) (ws' : list (list R)),
  wf_weights mw ws ->
  cell_resample (N := RN) mw ws c = Some ws' ->
  length ws' = length ws /\
  (forall i, length (nth i ws' []) = length (nth i ws [])) /\
  (forall i k, In i (members c) -> comp ws' i k = mean (map (fun j => comp ws j k) (members c))) /\
  (forall i, ~ In i (members c) -> nth_error ws' i = nth_error ws i).
Proof. exact resample_spec. Qed.
Print Assumptions C02_resample_mean.

(** In every arithmetic, binary64 included: all members receive identical weights and
    nothing else changes. *)
Theorem C02_resample_frame : forall (N : NumOps) mw (ws : list (list N)) (c : Cell N) ws',
  cell_resample mw ws c = Some ws' ->
  NoDup (members c) /\ (forall i, In i (members c) -> i < length ws) /\
  length ws' = length ws /\
  exists avg, forall i,
    nth_error ws' i = if in_dec Nat.eq_dec i (members c) then Some avg else nth_error ws i.
Proof. exact resample_frame. Qed.
Print Assumptions C02_resample_frame.

Local Open Scope R_scope.
Local Ltac leq := match goal with
  | |- @eq (list _) (_ :: _) (_ :: _) => apply f_equal2; leq
  | |- @eq (list _) _ _ => reflexivity
  | |- _ => field end.

Example C02_case :
  wf_weights true [[-3; 1]; [7; 7]; [9; 5]] /\
  exists ws' : list (list R), cell_resample (N := RN) true [[-3; 1]; [7; 7]; [9; 5]] (mkCell [2%nat; 0%nat] 1 6)
    = Some ws' /\ ws' = [[3; 3]; [7; 7]; [3; 3]].
Proof.
  split; [discriminate|]. eexists. split; [reflexivity|].
  cbn; leq.
Qed.

(** C03: totals are preserved by one cell. *)
Theorem C03_cell_total : forall mw (ws : list (list R)) (c : Cell RN) (ws' : list (list R)),
  wf_weights mw ws -> cell_resample (N := RN) mw ws c = Some ws' ->
  forall k, total ws' k = total ws k.
Proof. exact resample_total. Qed.
Print Assumptions C03_cell_total.

Example C03_case : exists ws' : list (list R),
  cell_resample (N := RN) false [[-3]; [7]; [9]] (mkCell [0%nat; 2%nat; 1%nat] 1 13) = Some ws' /\
  total ws' 0 = 13.
Proof. eexists. split; [reflexivity|]. cbn. unfold total, Rsum. cbn. field. Qed.

(** C09: the sign of a resampled cell.  [c] was built from the weights that are resampled
    (no update in between). *)
Theorem C09_sign : forall mw (ws : list (list R)) n seed nbrs (c : Cell RN) (ws' : list (list R)),
  wf_weights mw ws -> neighbours_of n seed nbrs -> (seed < n)%nat -> n = length ws ->
  cell_new ws seed nbrs = Some c -> cell_resample mw ws c = Some ws' ->
  (0 <= weight_sum c -> forall i, In i (members c) -> 0 <= comp ws' i 0) /\
  (weight_sum c < 0 -> exists v, v < 0 /\ forall i, In i (members c) -> comp ws' i 0 = v).
Proof. exact resample_sign. Qed.
Print Assumptions C09_sign.

(** Both signs occur: seed -3 with a neighbour 1 (negative cell), with a neighbour 5. *)
Example C09_case : forall x, x = 1 \/ x = 5 -> exists c ws',
  neighbours_of (N := RN) 2 0 [(1%nat, 4)] /\
  cell_new (N := RN) [[-3]; [x]] 0 [(1%nat, 4)] = Some c /\
  cell_resample (N := RN) false [[-3]; [x]] c = Some ws' /\ weight_sum c = -3 + x.
Proof.
  intros x Hx. do 2 eexists. split; [|split; [|split]].
  - split; [repeat constructor; cbn; tauto|]. cbn. intros i [<-|[]]. lia.
  - cbn. unfold Rleb. destruct (Rle_dec 0 (-3 + x)); reflexivity.
  - reflexivity.
  - reflexivity.
Qed.

(** C10: any sequence of cell updates (in any order, from any number of threads as long as
    each update is atomic) preserves totals, never increases the absolute or the negative
    weight content, and keeps every weight between the smallest and the largest one. *)
Theorem C10_shrinks : forall mw (cells : list (Cell RN)) (ws ws' : list (list R)),
  wf_weights mw ws -> ofold (cell_resample (N := RN) mw) cells ws = Some ws' ->
  forall k, total ws' k = total ws k /\ total_abs ws' k <= total_abs ws k /\
    total_neg ws' k <= total_neg ws k /\ forall lo hi, within lo hi k ws -> within lo hi k ws'.
Proof. exact resample_many_shrinks. Qed.
Print Assumptions C10_shrinks.

Example C10_case : exists ws' : list (list R),
  ofold (cell_resample (N := RN) false) [mkCell [0%nat; 1%nat] 1 (-1); mkCell [1%nat; 2%nat] 1 4] [[-3]; [2]; [9]]
    = Some ws' /\ ws' = [[-1/2]; [17/4]; [17/4]].
Proof. eexists. split; [reflexivity|]. cbn; leq. Qed.

(** C13: unequal numbers of weights panic; equal numbers never do. *)
Theorem C13_unequal_panics : forall (N : NumOps) (ws : list (list N)) (c : Cell N) i j wi wj,
  In i (members c) -> In j (members c) ->
  nth_error ws i = Some wi -> nth_error ws j = Some wj -> length wi <> length wj ->
  cell_resample true ws c = None.
Proof. exact resample_none_multi. Qed.
Print Assumptions C13_unequal_panics.

Theorem C13_equal_succeeds : forall (N : NumOps) (ws : list (list N)) (c : Cell N) n,
  NoDup (members c) -> members c <> [] ->
  (forall i, In i (members c) -> exists w, nth_error ws i = Some w /\ length w = n) ->
  exists ws', cell_resample true ws c = Some ws'.
Proof. exact resample_some_multi. Qed.
Print Assumptions C13_equal_succeeds.

Theorem C13_single_succeeds : forall (N : NumOps) (ws : list (list N)) (c : Cell N),
  NoDup (members c) ->
  (forall i, In i (members c) -> exists w, nth_error ws i = Some [w]) ->
  exists ws', cell_resample false ws c = Some ws'.
Proof. exact resample_some_single. Qed.
Print Assumptions C13_single_succeeds.

Example C13_case : forall x y z : B64,
  cell_resample (N := B64) true [[x; y]; [z]] (mkCell [1%nat; 0%nat] n0 n0) = None /\
  exists ws', cell_resample (N := B64) true [[x; y]; [z; x]] (mkCell [1%nat; 0%nat] n0 n0) = Some ws'.
Proof. intros. split; [reflexivity|]. eexists. reflexivity. Qed.
