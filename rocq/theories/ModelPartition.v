(** Model of src/partition.rs, of the conversion of a vantage-point tree into a partition
    (src/vptree.rs:462-491) and of the construction in src/bin/partition.rs. *)
From Coq Require Import NArith.
From Verif Require Import Base Num ModelNaive ModelVPTree ModelResampler.

Section Partition.
Context (F : NumOps).

(** src/partition.rs:92-97 [struct VPBisection] *)
Record Bisection (P : Type) := mkBis { b_pt : P; b_r : F }.
Arguments mkBis {P}. Arguments b_pt {P}. Arguments b_r {P}.

(** [usize::is_power_of_two] *)
Definition is_power_of_two (n : nat) : bool := (0 <? n) && (2 ^ Nat.log2 n =? n).

(** src/partition.rs:43-46 [from_vp]: panics unless there are 2^k - 1 bisections *)
Definition from_vp {P} (vp : list (Bisection P)) : option (list (Bisection P)) :=
  if is_power_of_two (length vp + 1) then Some vp else None.

(** src/partition.rs:49-60 [region]: the loop, started at [idx].  [cmp] on numbers that are
    not NaN: [Less] and [Equal] are [<=].  [None]: out of fuel (the index grows in each
    round; [length vp] rounds suffice, proved). *)
Fixpoint region_loop {P} (fuel : nat) (dist : P -> P -> F) (vp : list (Bisection P)) (point : P)
    (idx : nat) : option nat :=
  match nth_error vp idx with
  | None => Some (idx - length vp)
  | Some b =>
      match fuel with
      | 0 => None
      | S fuel =>
          region_loop fuel dist vp point
            (if nleb (dist (b_pt b) point) (b_r b) then 2 * idx + 1 else 2 * idx + 2)
      end
  end.

Definition region {P} (dist : P -> P -> F) (vp : list (Bisection P)) (point : P) : option nat :=
  region_loop (length vp) dist vp point 0.

(** src/partition.rs:71-73 [len] *)
Definition partition_len {P} (vp : list (Bisection P)) : nat := length vp + 1.

(** src/vptree.rs:475-488: the loop over the queue.  [std::mem::take] leaves a default node
    (no children) behind.  [None]: out of fuel, or a node index out of range. *)
Fixpoint bfs (fuel : nat) (nodes : list (Node F)) (queue : list nat) (vp : list (Bisection nat))
  : option (list (Bisection nat)) :=
  match queue with
  | [] => Some vp
  | node_idx :: queue =>
      match fuel with
      | 0 => None
      | S fuel =>
          match nth_error nodes node_idx, set_nth node_idx (mkNode 0 None) nodes with
          | Some node, Some nodes =>
              match children node with
              | Some ch =>
                  let inside_idx := node_idx + 1 in
                  bfs fuel nodes (queue ++ [inside_idx; inside_idx + ch_offset ch])
                      (vp ++ [mkBis (vantage_pt node) (ch_radius ch)])
              | None => bfs fuel nodes queue vp
              end
          | _, _ => None
          end
      end
  end.

(** src/vptree.rs:465-490 [VPTreePartition::from] *)
Definition to_partition (nodes : list (Node F)) : option (list (Bisection nat)) :=
  match nodes with
  | [] => from_vp []
  | _ =>
      match bfs (2 * length nodes + 1) nodes [0] [] with
      | None => None
      | Some vp => from_vp vp
      end
  end.

(** src/bin/partition.rs:80-104: what happens to the (negative-weight, clustered) events.
    The vantage points stay indices of events here; lines 106-114 replace them by the events.
    [TooFew]: the error message of lines 80-86. *)
Inductive partition_result := TooFew | Crash | Partition (vp : list (Bisection nat)).

Definition make_partition (sort : sorter) (choose : chooser) (par_min_size : nat)
    (dist : nat -> nat -> F) (nevents : nat) (regions : N) : partition_result :=
  if N.ltb (N.of_nat nevents) regions then TooFew
  else
    match log2_u32 regions with
    | None => Crash
    | Some depth =>
        match par_tree_of sort choose par_min_size dist depth (seq 0 nevents) with
        | None => Crash
        | Some nodes => match to_partition nodes with Some vp => Partition vp | None => Crash end
        end
    end.
End Partition.
Arguments mkBis {F P}. Arguments b_pt {F P}. Arguments b_r {F P}. Arguments from_vp {F P}.
Arguments region_loop {F P}. Arguments region {F P}. Arguments partition_len {F P}.
Arguments bfs {F}. Arguments to_partition {F}. Arguments make_partition {F}.
Arguments TooFew {F}. Arguments Crash {F}. Arguments Partition {F}.
