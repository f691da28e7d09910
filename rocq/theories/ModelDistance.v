(** Model of src/distance.rs. *)
From Coq Require Import ZArith.
From Verif Require Import Base Num ModelEvent.

(** permutohedron 0.2, [LexicalPermutation::next_permutation]: the next arrangement in
    lexicographic order, in place; [None] stands for the return value [false] (the slice
    was weakly decreasing and is left unchanged).

    The array algorithm looks for the longest weakly decreasing tail, exchanges the
    element before it (the pivot) with the rightmost larger element of the tail, and
    reverses the tail.  Written recursively: if the tail of the list has a next
    arrangement take that one; otherwise the tail is weakly decreasing and the head is
    the pivot. *)
Section NextPermutation.
Context {A : Type} (leb : A -> A -> bool).

(** Exchange [a] with the rightmost element of the (weakly decreasing) list that is larger
    than [a]: the element found and the list with [a] in its place.  The search goes from
    the right past the elements that are [<= a]. *)
Fixpoint exchange_pivot (a : A) (t : list A) : option (A * list A) :=
  match t with
  | [] => None
  | y :: t' =>
      match exchange_pivot a t' with
      | Some (z, t'') => Some (z, y :: t'')
      | None => if leb y a then None else Some (y, a :: t')
      end
  end.

Fixpoint next_permutation (l : list A) : option (list A) :=
  match l with
  | [] => None
  | a :: t =>
      match next_permutation t with
      | Some t' => Some (a :: t')
      | None =>
          match exchange_pivot a t with
          | Some (y, t') => Some (y :: rev t')
          | None => None
          end
      end
  end.

End NextPermutation.

Section Distance.
Context (N : NumOps).

(** src/distance.rs:204-224 and 257-267 [SquareMatrix]: entries row by row *)
Record SquareMatrix := mkSM { sm_entries : list N; sm_rows : nat }.

(** src/distance.rs:257-267 [FromIterator].  [rows] is the f64 square root of the number of
    entries, which is exact (and integer) for perfect squares below 2^53 and not an
    integer for other numbers below 2^53; otherwise the assertion panics. *)
Definition sm_from (entries : list N) : option SquareMatrix :=
  let rows := Nat.sqrt (length entries) in
  if Nat.eqb (rows * rows) (length entries) then Some (mkSM entries rows) else None.

(** src/distance.rs:210-217 [Index] (a default value stands for the out-of-bounds panic:
    the assignment algorithm only asks for entries in range), 227-238 [Weights::at] *)
Definition sm_at (m : SquareMatrix) (row col : nat) : N := nth (row * sm_rows m + col) (sm_entries m) n0.

(** src/distance.rs:240-246 [Weights::neg] *)
Definition sm_neg (m : SquareMatrix) : SquareMatrix := mkSM (map nopp (sm_entries m)) (sm_rows m).

(** pathfinding 4.2 [kuhn_munkres]: any algorithm that, given the number of rows (and
    columns) and the weights, returns the maximum weight of an assignment.  Not modelled
    further: see [km_ok] in SpecDistance.v for what is assumed of it. *)
Definition assignment := nat -> (nat -> nat -> N) -> N.

(** pathfinding 4.2 [kuhn_munkres_min]: negate, maximise, negate. *)
Definition kuhn_munkres_min (km : assignment) (m : SquareMatrix) : N :=
  nopp (km (sm_rows (sm_neg m)) (sm_at (sm_neg m))).

(** src/distance.rs:160-167 [pt_norm], [pt_norm_sq] *)
Definition pt_norm_sq (p : FourVector N) (pt_weight : N) : N :=
  let pt := nmul pt_weight (fv_pt p) in
  nadd (spatial_norm_sq p) (nmul pt pt).
Definition pt_norm (p : FourVector N) (pt_weight : N) : N := nsqrt (pt_norm_sq p pt_weight).

(** src/distance.rs:169-176 [pt_dist], [pt_dist_sq] *)
Definition pt_dist_sq (p q : FourVector N) (pt_weight : N) : N :=
  let dpt := nmul pt_weight (nsub (fv_pt p) (fv_pt q)) in
  nadd (spatial_norm_sq (fv_sub p q)) (nmul dpt dpt).
Definition pt_dist (p q : FourVector N) (pt_weight : N) : N := nsqrt (pt_dist_sq p q pt_weight).

Section Eucl.
(** src/distance.rs:43-45 [EuclWithScaledPt]: its one field, and the sorting and assignment
    algorithms it calls *)
Context (sort : sorter) (km : assignment) (pt_weight : N).

(** src/distance.rs:102-104 *)
Definition set_norm (p : list (FourVector N)) : N := nsum (map (fun p => pt_norm p pt_weight) p).

(** src/distance.rs:150-156 [paired_distance] *)
Definition paired_distance (p1 p2 : list (FourVector N)) : N :=
  nsum (map (fun x => pt_dist (fst x) (snd x) pt_weight) (combine p1 p2)).

(** [std::cmp::min(a, b)]: [a] if [a <= b] *)
Definition nmin (a b : N) : N := match ncmp a b with Gt => b | _ => a end.

(** src/distance.rs:132-134  the loop; [fuel] bounds the number of iterations, [None] when
    it is exhausted (which does not happen, see [naive_fuel] in DistanceProofs.v) *)
Fixpoint naive_loop (fuel : nat) (p1 p2 : list (FourVector N)) (min_dist : N) : option N :=
  match fuel with
  | 0 => None
  | S fuel =>
      match next_permutation fv_leb p1 with
      | None => Some min_dist
      | Some p1' => naive_loop fuel p1' p2 (nmin min_dist (paired_distance p1' p2))
      end
  end.

(** src/distance.rs:126-136 [min_paired_distance_naive] *)
Definition min_paired_distance_naive (p1 p2 : list (FourVector N)) : option N :=
  naive_loop (fact (length p1)) p1 p2 (paired_distance p1 p2).

(** src/distance.rs:138-148 [min_paired_distance_hungarian]; [list_prod] enumerates like
    [cartesian_product] (second factor fastest) *)
Definition min_paired_distance_hungarian (p1 p2 : list (FourVector N)) : option N :=
  match sm_from (map (fun x => pt_dist (fst x) (snd x) pt_weight) (list_prod p1 p2)) with
  | Some m => Some (kuhn_munkres_min km m)
  | None => None
  end.

(** src/distance.rs:110-123, after the exchange of the arguments: [p1] not longer than
    [p2].  [max_naive] is the constant MAX_PART_NAIVE (line 117). *)
Definition max_part_naive : nat := 3.

Definition min_paired_distance_le (p1 p2 : list (FourVector N)) : option N :=
  let p1 := sort _ fv_leb (p1 ++ repeat fv_new (length p2 - length p1)) in
  match length p1, p1, p2 with
  | 0, _, _ => Some n0
  | 1, a :: _, b :: _ => Some (pt_dist a b pt_weight)
  | k, _, _ => if k <=? max_part_naive then min_paired_distance_naive p1 p2
               else min_paired_distance_hungarian p1 p2
  end.

(** src/distance.rs:106-124 [set_distance], [min_paired_distance] *)
Definition min_paired_distance (p1 p2 : list (FourVector N)) : option N :=
  if length p2 <? length p1 then min_paired_distance_le p2 p1
  else min_paired_distance_le p1 p2.

(** src/distance.rs:52-85  the loop over both lists and the remainders; the accumulated
    distance is [dist].  The recursion follows [idx1], the inner one [idx2]. *)
Fixpoint merge_loop (dist : N) (out1 : list (Z * list (FourVector N))) :
    list (Z * list (FourVector N)) -> option N :=
  match out1 with
  | [] => fun out2 =>
      match out2 with
      | [] => Some dist
      | _ => Some (nadd dist (nsum (map (fun x => set_norm (snd x)) out2)))
      end
  | (t1, p1) :: rest1 => 
      (fix inner (dist : N) (out2 : list (Z * list (FourVector N))) : option N :=
        match out2 with
        | [] => Some (nadd dist (nsum (map (fun x => set_norm (snd x)) out1)))
        | (t2, p2) :: rest2 =>
            match Z.compare t1 t2 with
            | Gt => merge_loop (nadd dist (set_norm p1)) rest1 out2
            | Lt => inner (nadd dist (set_norm p2)) rest2
            | Eq => match min_paired_distance p1 p2 with
                    | Some d => merge_loop (nadd dist d) rest1 rest2
                    | None => None
                    end
            end
        end) dist
  end.

(** src/distance.rs:48-86 [EuclWithScaledPt::distance] *)
Definition distance (ev1 ev2 : Event N) : option N := merge_loop n0 (ev_out ev1) (ev_out ev2).

End Eucl.
End Distance.

Arguments sm_at {N}. Arguments sm_from {N}. Arguments sm_neg {N}. Arguments kuhn_munkres_min {N}.
Arguments pt_norm_sq {N}. Arguments pt_norm {N}. Arguments pt_dist_sq {N}. Arguments pt_dist {N}.
Arguments set_norm {N}. Arguments paired_distance {N}. Arguments nmin {N}. Arguments naive_loop {N}.
Arguments min_paired_distance_naive {N}. Arguments min_paired_distance_hungarian {N}.
Arguments min_paired_distance_le {N}. Arguments min_paired_distance {N}. Arguments merge_loop {N}.
Arguments distance {N}.
