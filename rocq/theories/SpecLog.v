(** What the numbers in the log of a run mean (exact reals). *)
From Coq Require Import Reals ZArith.
From Verif Require Import Base Num ModelEvent ModelLog SpecWeights.
Local Open Scope R_scope.

(** Sum of the absolute weights, and of the absolute values of the negative ones. *)
Definition abs_sum (ws : list R) : R := Rsum (map Rabs ws).
Definition neg_sum (ws : list R) : R := Rsum (map (fun w => Rmax (- w) 0) ws).

(** These are the sum of the weights, the square root of the sum of their squares, and the part of
    the negative weights in the sum of absolute weights. *)
Definition reports (s : wt_stats RN) (ws : list R) : Prop :=
  st_sum s = Rsum ws /\ st_error s = sqrt (Rsum (map (fun w => w * w) ws)) /\
  st_fraction s * abs_sum ws = neg_sum ws.

(** The kinds of outgoing particles, with the numbers of particles. *)
Definition kinds {N : NumOps} (e : Event N) : list (Z * nat) := map (fun x => (fst x, length (snd x))) (ev_out e).

Local Open Scope nat_scope.
(** Number of events with these kinds of particles *)
Definition kind_eq_dec : forall a b : list (Z * nat), {a = b} + {a <> b}.
Proof. intros. apply (list_eq_dec (fun x y : Z * nat => ltac:(decide equality; [apply Nat.eq_dec|apply Z.eq_dec]))). Defined.
Definition events_with {N : NumOps} (events : list (Event N)) (c : list (Z * nat)) : nat :=
  count_occ kind_eq_dec (map kinds events) c.

(** [all] lists all kinds of events, once each, with the number of events, the most frequent ones first. *)
Definition census {N : NumOps} (events : list (Event N)) (all : list (list (Z * nat) * nat)) : Prop :=
  NoDup (map fst all) /\ (forall c n, In (c, n) all <-> 0 < n /\ events_with events c = n) /\
  StronglySorted (fun a b => snd b <= snd a) all.

(** The lines of the log on the kinds of events: the first 1000, and the number of kinds if there
    are more. *)
Definition census_lines {N : NumOps} (all : list (list (Z * nat) * nat)) (lines : list (log_line N)) : Prop :=
  lines = map (fun x => LCategory (snd x) (fst x)) (firstn 1000 all) ++
    (if 1000 <? length all then [LCategories (length all)] else []).
