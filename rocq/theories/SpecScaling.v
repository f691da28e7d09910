(** Scale factors of STRIPPER XML weights: for each name, the last normalisation given for it
    divided by the total number of events with that name. *)
From Coq Require Import Ascii List.
From Verif Require Import ModelText ModelStripper.
Import ListNotations.

Section Scaling.
Context {N : Num.NumOps}.
Definition norms (name : text) (tags : list (stripper_tag N)) : list (Num.num N) :=
  flat_map (fun t => match t with Normalization n s => if list_eq_dec ascii_dec n name then [s] else [] | _ => [] end) tags.
Definition events (name : text) (tags : list (stripper_tag N)) : list nat :=
  flat_map (fun t => match t with Eventrecord n k => if list_eq_dec ascii_dec n name then [k] else [] | _ => [] end) tags.
Definition total (name : text) (tags : list (stripper_tag N)) : nat := list_sum (events name tags).
Definition mentioned (name : text) (tags : list (stripper_tag N)) : Prop :=
  exists t, In t tags /\ match t with Normalization n _ => n = name | Eventrecord n _ => n = name end.
End Scaling.
