(** Specification vocabulary for neighbour searches and seeds; independent of the model. *)
From Verif Require Import Base Num.

(** [res] is the complete answer to "which of the points [0 .. npts-1] other than [q] lie
    within [max] of [q], nearest first", where [dq i] is the distance between [i] and [q]. *)
Definition nearest_list {N : NumOps} (npts q : nat) (dq : nat -> N) (max : N)
    (res : list (nat * N)) : Prop :=
  NoDup (map fst res) /\
  (forall i, In i (map fst res) <-> i < npts /\ i <> q /\ nleb (dq i) max = true) /\
  Forall (fun x => snd x = dq (fst x)) res /\
  StronglySorted (fun x y => nleb (snd x) (snd y) = true) res.

(** A list of neighbours of [seed] among [npts] points, without repetitions. *)
Definition neighbours_of {N : NumOps} (npts seed : nat) (nbrs : list (nat * N)) : Prop :=
  NoDup (map fst nbrs) /\ forall i, In i (map fst nbrs) -> i < npts /\ i <> seed.

(** A prepared search that always answers with neighbours. *)
Definition valid_search {N : NumOps} (npts : nat) (nearest : nat -> option (list (nat * N))) : Prop :=
  forall seed, seed < npts -> exists nbrs, nearest seed = Some nbrs /\ neighbours_of npts seed nbrs.

(** ... and that eventually delivers every other point (no size limit). *)
Definition complete_search {N : NumOps} (npts : nat) (nearest : nat -> option (list (nat * N))) : Prop :=
  forall seed, seed < npts -> exists nbrs, nearest seed = Some nbrs /\ neighbours_of npts seed nbrs /\
    forall i, i < npts -> i <> seed -> In i (map fst nbrs).
