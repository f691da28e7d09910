(** C14: the naive neighbour search is exact. *)
From Coq Require Import ZArith.
From Verif Require Import Base BaseProofs Num ModelNaive SpecSearch NaiveProofs.

(** For every arithmetic with a total order on the distances that occur (the reals;
    binary64 without NaN but with infinities: [B64_order]), every distance function, limit,
    number of points, query and admissible choice among equally near candidates. *)
Theorem C14_naive_exact : forall (N : NumOps) (D : N -> Prop), order_on N D ->
  forall (choose : chooser) npoints (dist : nat -> nat -> N) max q,
  choose_ok choose -> D max -> (forall i, i < npoints -> D (dist i q)) -> q < npoints ->
  exists res, naive_nearest choose npoints dist max q = Some res /\
              nearest_list npoints q (fun i => dist i q) max res.
Proof. exact naive_nearest_ok. Qed.
Print Assumptions C14_naive_exact.

(** binary64, four points on a line, one of them infinitely far away; limit infinity. *)
Example C14_case :
  let pos := [0; 7; 3]%Z in
  let dist := fun i j : nat => match i, j with
    | 3, 3 => n0 | 3, _ => b64_inf | _, 3 => b64_inf
    | _, _ => b64_of_Z (Z.abs (nth i pos 0 - nth j pos 0)%Z) end in
  choose_ok first_min /\ (forall i, i < 4 -> not_nan (dist i 1)) /\
  naive_nearest (N := B64) first_min 4 dist b64_inf 1 =
    Some [(2, b64_of_Z 4); (0, b64_of_Z 7); (3, b64_inf)] /\
  naive_nearest (N := B64) first_min 4 dist (b64_of_Z 5) 1 = Some [(2, b64_of_Z 4)].
Proof.
  cbv zeta. split; [exact first_min_ok|split; [|split; vmr]].
  intros i Hi. do 4 (destruct i as [|i]; [vm_compute; discriminate|]). lia.
Qed.
