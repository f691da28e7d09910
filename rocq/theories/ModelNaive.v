(** Model of the naive neighbour search, src/neighbour_search.rs:66-165. *)
From Verif Require Import Base Num.

(** [ParallelIterator::min_by_key] together with [enumerate]: the position of *some*
    minimal element (rayon does not promise which one). *)
Definition chooser := forall A : Type, (A -> A -> bool) -> list A -> option nat.

Definition choose_ok (choose : chooser) : Prop :=
  forall A (leb : A -> A -> bool) (l : list A),
    total_preorder_on (fun x => In x l) leb ->
    match choose A leb l with
    | None => l = []
    | Some pos => exists x, nth_error l pos = Some x /\ forall y, In y l -> leb x y = true
    end.

(** Leftmost minimum: one such choice, used to run the model. *)
Fixpoint argmin_from {A} (leb : A -> A -> bool) (best : A) (bpos pos : nat) (l : list A) : nat :=
  match l with
  | [] => bpos
  | x :: t => if leb best x then argmin_from leb best bpos (S pos) t
              else argmin_from leb x pos (S pos) t
  end.

Definition first_min : chooser := fun A leb l =>
  match l with [] => None | x :: t => Some (argmin_from leb x 0 1 t) end.

Section Naive.
Context (N : NumOps).

(** src/neighbour_search.rs:126-130 [NaiveNeighbourIter] *)
Record NaiveIter := mkNaive { ni_dist : list (nat * N); ni_cand : list nat; ni_max : N }.

(** src/neighbour_search.rs:133-141 [NaiveNeighbourIter::new] *)
Definition naive_new (dist : list (nat * N)) (seed : nat) (max_dist : N) : option NaiveIter :=
  match swap_remove seed (seq 0 (length dist)) with
  | None => None
  | Some c => Some (mkNaive dist c max_dist)
  end.

(** [self.dist[idx].1] for an index in range *)
Definition ni_key (it : NaiveIter) (idx : nat) : N :=
  match nth_error (ni_dist it) idx with Some (_, d) => d | None => n0 end.

(** src/neighbour_search.rs:147-164 [next] *)
Definition naive_next (choose : chooser) (it : NaiveIter) : option ((nat * N) * NaiveIter) :=
  match choose _ (fun i j => nleb (ni_key it i) (ni_key it j)) (ni_cand it) with
  | None => None
  | Some pos =>
      match nth_error (ni_cand it) pos with
      | None => None
      | Some idx =>
          let dist := ni_key it idx in
          if nleb dist (ni_max it) then
            match swap_remove pos (ni_cand it) with
            | None => None
            | Some c => Some ((idx, ni_key it idx), mkNaive (ni_dist it) c (ni_max it))
            end
          else None
      end
  end.

(** Driving the iterator until it returns [None].  Every item removes a candidate, so
    [length (ni_cand it)] rounds suffice (proved: the iterator is exhausted then). *)
Fixpoint naive_run (fuel : nat) (choose : chooser) (it : NaiveIter) : list (nat * N) * NaiveIter :=
  match fuel with
  | 0 => ([], it)
  | S fuel =>
      match naive_next choose it with
      | None => ([], it)
      | Some (x, it') => let '(l, it'') := naive_run fuel choose it' in (x :: l, it'')
      end
  end.

(** src/neighbour_search.rs:98-105 and 111-121: search data for [npoints] points, then
    [nearest(point)] driven to its end.  Note the argument order
    [distance(id, point)].  [None]: the point is out of range. *)
Definition naive_nearest (choose : chooser) (npoints : nat) (dist : nat -> nat -> N)
    (max_dist : N) (point : nat) : option (list (nat * N)) :=
  match naive_new (map (fun id => (id, dist id point)) (seq 0 npoints)) point max_dist with
  | None => None
  | Some it => Some (fst (naive_run (length (ni_cand it)) choose it))
  end.

End Naive.
Arguments mkNaive {N}. Arguments ni_dist {N}. Arguments ni_cand {N}. Arguments ni_max {N}.
Arguments naive_new {N}. Arguments ni_key {N}. Arguments naive_next {N}.
Arguments naive_run {N}. Arguments naive_nearest {N}.
