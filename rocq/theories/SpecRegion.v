(** Parts of a sample that are far from the rest, and samples without ties; independent of the model's functions. *)
From Verif Require Import Base Num ModelEvent.
From Coq Require Import List.
Import ListNotations.

(** No event of the part lies within [max] of an event outside. *)
Definition isolated {N : NumOps} (inside : Event N -> bool) (dist : Event N -> Event N -> N) (max : N) (evs : list (Event N)) : Prop :=
  forall a b, In a evs -> In b evs -> inside a = true -> inside b = false -> nleb (dist a b) max = false /\ nleb (dist b a) max = false.

(** Seen from any event, no two others are equally far away. *)
Definition no_ties {N : NumOps} (dist : Event N -> Event N -> N) (evs : list (Event N)) : Prop :=
  forall q i j a b c, q <> i -> q <> j -> nth_error evs q = Some a -> nth_error evs i = Some b -> nth_error evs j = Some c ->
  nleb (dist b a) (dist c a) = true -> nleb (dist c a) (dist b a) = true -> i = j.

(** No two events have equal negative central weights. *)
Definition no_equal_negative {N : NumOps} (evs : list (Event N)) : Prop :=
  forall i j a b v w, nth_error evs i = Some a -> nth_error evs j = Some b -> hd_error (ev_weights a) = Some v -> hd_error (ev_weights b) = Some w ->
  nltb v n0 = true -> nltb w n0 = true -> nleb v w = true -> nleb w v = true -> i = j.

(** The events with the given indices *)
Definition picked {N : NumOps} (evs : list (Event N)) (ids : list nat) : list (option (Event N)) := map (nth_error evs) ids.

(** The first of the indices belongs to an event of the part. *)
Definition starts_inside {N : NumOps} (inside : Event N -> bool) (evs : list (Event N)) (ids : list nat) : bool :=
  match ids with
  | [] => false
  | s :: _ => match nth_error evs s with Some e => inside e | None => false end
  end.
