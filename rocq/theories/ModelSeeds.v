(** Model of src/seeds.rs. *)
From Verif Require Import Base Num ModelEvent ModelCell.

Section Seeds.
Context (N : NumOps).

(** src/seeds.rs:24-31 *)
Inductive Strategy := LeastNegative | MostNegative | Next.

(** src/seeds.rs:33-37 [Default for Strategy] *)
Definition default_strategy : Strategy := MostNegative.

(** [events[n].weight()] for an index known to be in range *)
Definition key_of (wts : list N) (n : nat) : N := nth n wts n0.

(** src/seeds.rs:55-77 [select_seeds].  The final [into_par_iter().with_max_len(..)] only
    affects scheduling.  [None]: some event has no weight at all ([weight()] panics). *)
Definition select_seeds (sort : sorter) (strategy : Strategy) (ws : weights_state N)
  : option (list nat) :=
  match omap central ws with
  | None => None
  | Some wts =>
      let neg_weight :=
        map fst (filter (fun '(_, w) => nltb w n0) (combine (seq 0 (length wts)) wts)) in
      Some match strategy with
           | Next => neg_weight
           | MostNegative =>
               sort _ (fun n m => nleb (key_of wts n) (key_of wts m)) neg_weight
           | LeastNegative =>
               sort _ (fun n m => nleb (key_of wts m) (key_of wts n)) neg_weight
           end
  end.

End Seeds.
Arguments key_of {N}. Arguments select_seeds {N}.
