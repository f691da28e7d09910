(** When the order of the events should not matter; independent of the model. *)
From Coq Require Import List.
From Verif Require Import Num ModelEvent SpecSearch.
Import ListNotations.

(** From every event, all others have different distances. *)
Definition distances_differ {N : NumOps} (dist : Event N -> Event N -> N) (evs : list (Event N)) : Prop :=
  forall q i j a b c, q <> i -> q <> j -> nth_error evs q = Some a -> nth_error evs i = Some b -> nth_error evs j = Some c ->
  dist b a = dist c a -> i = j.

(** No two events have the same negative central weight. *)
Definition negative_weights_differ {N : NumOps} (evs : list (Event N)) : Prop :=
  forall i j a b w, nth_error evs i = Some a -> nth_error evs j = Some b ->
  hd_error (ev_weights a) = Some w -> hd_error (ev_weights b) = Some w -> nltb w n0 = true -> i = j.

(** The search gives the complete answer for every event as query. *)
Definition answers {N : NumOps} (npts : nat) (d : nat -> nat -> N) (max : N) (nearest : nat -> option (list (nat * N))) : Prop :=
  forall q, q < npts -> exists res, nearest q = Some res /\ nearest_list npts q (fun i => d i q) max res.
