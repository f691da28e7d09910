(** Model of src/vptree.rs.  Points are indices ([P = usize], the only instance used for
    searching in the crate; src/neighbour_search.rs:42-64). *)
From Coq Require Import NArith.
From Verif Require Import Base Num ModelNaive.

Section VPTree.
Context (F : NumOps).

(** src/vptree.rs:38-42 [struct Children] *)
Record Children := mkChildren { ch_radius : F; ch_offset : nat }.

(** src/vptree.rs:32-36 [struct Node] *)
Record Node := mkNode { vantage_pt : nat; children : option Children }.

(** src/vptree.rs:144-162 [find_corner_pt] (and 263-273, the parallel version): position
    of a point with the largest distance to the first one.  [choose] with the reversed
    order stands for [max_by_key]. *)
Definition find_corner_pt (choose : chooser) (dist : nat -> nat -> F) (pts : list nat)
  : option nat :=
  match pts with
  | [] => None
  | first :: rest =>
      match choose _ (fun a b => nleb (dist first b) (dist first a)) rest with
      | Some pos => Some (pos + 1)
      | None => Some 0
      end
  end.

Definition fst_leb (a b : F * Node) : bool := nleb (fst a) (fst b).

(** src/vptree.rs:180-201 [build_tree] on the slice [pts].  [fuel] bounds the recursion
    (slice lengths decrease; fuel [S (length pts)] suffices, proved); [None] is
    out of fuel or a panic. *)
Fixpoint build_tree (fuel : nat) (sort : sorter) (dist : nat -> nat -> F) (depth : N)
    (pts : list (F * Node)) : option (list (F * Node)) :=
  match fuel with
  | 0 => None
  | S fuel =>
      if (length pts <? 2) || N.eqb depth 0 then Some pts
      else
        match swap 0 (length pts - 1) pts with
        | Some (vp :: rest) =>
            let rest := map (fun '(_, pt) =>
              (dist (vantage_pt (snd vp)) (vantage_pt pt), pt)) rest in
            let rest := sort _ fst_leb rest in
            let median_idx := length rest / 2 in
            let inside := firstn median_idx rest in
            let outside := skipn median_idx rest in
            match outside with
            | [] => None
            | (r, _) :: _ =>
                let vp' := (fst vp, mkNode (vantage_pt (snd vp))
                                           (Some (mkChildren r median_idx))) in
                match build_tree fuel sort dist (N.pred depth) inside,
                      build_tree fuel sort dist (N.pred depth) outside with
                | Some i', Some o' => Some (vp' :: i' ++ o')
                | _, _ => None
                end
            end
        | _ => None
        end
  end.

(** src/vptree.rs:275-299 [par_build_tree]; [par_min_size] is the constant 1000.  The two
    recursive calls work on disjoint slices, so running them in parallel gives the same
    result as running them one after the other. *)
Fixpoint par_build_tree (fuel : nat) (sort : sorter) (par_min_size : nat)
    (dist : nat -> nat -> F) (depth : N) (pts : list (F * Node)) : option (list (F * Node)) :=
  match fuel with
  | 0 => None
  | S fuel' =>
      if N.eqb depth 0 then Some pts
      else if length pts <? par_min_size then build_tree fuel sort dist depth pts
      else
        match swap 0 (length pts - 1) pts with
        | Some (vp :: rest) =>
            let rest := map (fun '(_, pt) =>
              (dist (vantage_pt (snd vp)) (vantage_pt pt), pt)) rest in
            let rest := sort _ fst_leb rest in
            let median_idx := length rest / 2 in
            let inside := firstn median_idx rest in
            let outside := skipn median_idx rest in
            match outside with
            | [] => None
            | (r, _) :: _ =>
                let vp' := (fst vp, mkNode (vantage_pt (snd vp))
                                           (Some (mkChildren r median_idx))) in
                match par_build_tree fuel' sort par_min_size dist (N.pred depth) inside,
                      par_build_tree fuel' sort par_min_size dist (N.pred depth) outside with
                | Some i', Some o' => Some (vp' :: i' ++ o')
                | _, _ => None
                end
            end
        | _ => None
        end
  end.

(** src/vptree.rs:116-134: initial nodes, corner point moved to the end *)
Definition init_nodes (choose : chooser) (dist : nat -> nat -> F) (pts : list nat)
  : option (list (F * Node)) :=
  let nodes := map (fun p => (n0, mkNode p None)) pts in
  match find_corner_pt choose dist pts with
  | None => Some nodes
  | Some pos => swap pos (length nodes - 1) nodes
  end.

(** src/vptree.rs:108-142 [from_iter_with_dist_and_depth]: the node array *)
Definition tree_of (sort : sorter) (choose : chooser) (dist : nat -> nat -> F) (depth : N)
    (pts : list nat) : option (list Node) :=
  match init_nodes choose dist pts with
  | None => None
  | Some nodes =>
      match build_tree (S (length nodes)) sort dist depth nodes with
      | None => None
      | Some nodes => Some (map snd nodes)
      end
  end.

(** src/vptree.rs:218-261 [from_par_iter_with_dist_and_depth] *)
Definition par_tree_of (sort : sorter) (choose : chooser) (par_min_size : nat)
    (dist : nat -> nat -> F) (depth : N) (pts : list nat) : option (list Node) :=
  match init_nodes choose dist pts with
  | None => None
  | Some nodes =>
      match par_build_tree (S (length nodes)) sort par_min_size dist depth nodes with
      | None => None
      | Some nodes => Some (map snd nodes)
      end
  end.

(** [usize::MAX], the depth used when no depth is given (src/vptree.rs:104, 214) *)
Definition usize_max : N := (2 ^ 64 - 1)%N.

(** src/vptree.rs:418-430 [nearer] *)
Definition nearer (a b : option (nat * F)) : option (nat * F) :=
  match a, b with
  | Some (_, d1), Some (_, d2) => if nleb d1 d2 then a else b
  | None, Some _ => b
  | _, _ => a
  end.

(** [HashMap::entry(k).or_insert_with(..)] on the distance cache *)
Fixpoint cache_get (c : list (nat * F)) (k : nat) : option F :=
  match c with
  | [] => None
  | (k', d) :: t => if Nat.eqb k k' then Some d else cache_get t k
  end.

Definition cache_entry (c : list (nat * F)) (k : nat) (d : F) : F * list (nat * F) :=
  match cache_get c k with Some d' => (d', c) | None => (d, (k, d) :: c) end.

(** src/vptree.rs:345-416 [nearest_in_subtree]: index and distance of a nearest point, and
    the updated cache.  [None]: out of fuel, or a panic of [split_at]. *)
Fixpoint nearest_in_subtree (fuel : nat) (dist : nat -> nat -> F) (max_dist : F)
    (subtree : list Node) (pt idx : nat) (exclude : list nat) (cache : list (nat * F))
  : option (option (nat * F) * list (nat * F)) :=
  match fuel with
  | 0 => None
  | S fuel =>
      match subtree with
      | [] => Some (None, cache)
      | node :: tree =>
          let '(d, cache) := cache_entry cache (vantage_pt node) (dist pt (vantage_pt node)) in
          let nearest :=
            if Nat.eqb pt (vantage_pt node) || existsb (Nat.eqb (vantage_pt node)) exclude
            then None else Some (idx, d) in
          match children node with
          | None => Some (nearest, cache)
          | Some ch =>
              if length tree <? ch_offset ch then None
              else
                let inside := firstn (ch_offset ch) tree in
                let outside := skipn (ch_offset ch) tree in
                let '(pref, other, off_pref, off_other) :=
                  if nltb (ch_radius ch) d
                  then (outside, inside, ch_offset ch + 1, 1)
                  else (inside, outside, 1, ch_offset ch + 1) in
                match nearest_in_subtree fuel dist max_dist pref pt (idx + off_pref)
                        exclude cache with
                | None => None
                | Some (nearest_pref, cache) =>
                    let nearest := nearer nearest nearest_pref in
                    if negb (nleb (nabs (nsub d (ch_radius ch))) max_dist)
                    then Some (nearest, cache)
                    else if match nearest with
                            | Some (_, dn) => nltb dn (nabs (nsub (ch_radius ch) d))
                            | None => false
                            end
                    then Some (nearest, cache)
                    else
                      match nearest_in_subtree fuel dist max_dist other pt (idx + off_other)
                              exclude cache with
                      | None => None
                      | Some (nearest_other, cache) => Some (nearer nearest nearest_other, cache)
                      end
                end
          end
      end
  end.

(** src/vptree.rs:316-343 [nearest_in_impl]; the result is the point and its distance *)
Definition nearest_in_impl (nodes : list Node) (dist : nat -> nat -> F) (max_dist : F)
    (pt : nat) (exclude : list nat) (cache : list (nat * F))
  : option (option (nat * F) * list (nat * F)) :=
  match nearest_in_subtree (S (length nodes)) dist max_dist nodes pt 0 exclude cache with
  | None => None
  | Some (None, cache) => Some (None, cache)
  | Some (Some (idx, d), cache) =>
      if nleb d max_dist then
        match nth_error nodes idx with
        | None => None
        | Some n => Some (Some (vantage_pt n, d), cache)
        end
      else Some (None, cache)
  end.

(** src/vptree.rs:434-460 [NearestNeighbourIter] driven until it returns [None]; at most
    [length nodes] items come out (proved).  [None]: panic or out of fuel. *)
Fixpoint nn_run (fuel : nat) (nodes : list Node) (dist : nat -> nat -> F) (max_dist : F)
    (pt : nat) (exclude : list nat) (cache : list (nat * F)) : option (list (nat * F)) :=
  match fuel with
  | 0 => None
  | S fuel =>
      match nearest_in_impl nodes dist max_dist pt exclude cache with
      | None => None
      | Some (None, _) => Some []
      | Some (Some (x, d), cache) =>
          match nn_run fuel nodes dist max_dist pt (x :: exclude) cache with
          | None => None
          | Some l => Some ((x, d) :: l)
          end
      end
  end.

(** src/vptree.rs:304-314 [nearest_in] *)
Definition nearest_in (nodes : list Node) (dist : nat -> nat -> F) (max_dist : F) (pt : nat)
  : option (list (nat * F)) :=
  nn_run (S (length nodes)) nodes dist max_dist pt [] [].

(** src/neighbour_search.rs:53-64 (PAR_MIN_SIZE: src/vptree.rs:276) and 48-50:
    [TreeSearch::new_with_dist] followed by [nearest] *)
Definition tree_nearest (sort : sorter) (choose : chooser) (npoints : nat)
    (dist : nat -> nat -> F) (max_dist : F) (point : nat) : option (list (nat * F)) :=
  match par_tree_of sort choose 1000 dist usize_max (seq 0 npoints) with
  | None => None
  | Some nodes => nearest_in nodes dist max_dist point
  end.

End VPTree.
Arguments mkChildren {F}. Arguments ch_radius {F}. Arguments ch_offset {F}.
Arguments mkNode {F}. Arguments vantage_pt {F}. Arguments children {F}.
Arguments find_corner_pt {F}. Arguments fst_leb {F}. Arguments build_tree {F}.
Arguments par_build_tree {F}. Arguments init_nodes {F}. Arguments tree_of {F}.
Arguments par_tree_of {F}. Arguments nearer {F}. Arguments cache_get {F}.
Arguments cache_entry {F}. Arguments nearest_in_subtree {F}. Arguments nearest_in_impl {F}.
Arguments nn_run {F}. Arguments nearest_in {F}. Arguments tree_nearest {F}.
