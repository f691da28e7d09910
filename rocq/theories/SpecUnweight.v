(** Specification vocabulary for unweighting (exact reals). *)
From Coq Require Import Reals.
From Verif Require Import Base Num ModelEvent SpecWeights.
Local Open Scope R_scope.

(** Central weight. *)
Definition cw (e : Event RN) : R := nth 0 (ev_weights e) 0.

(** Events of weight [|w| <= m], for which a random number is drawn. *)
Definition light (m : R) (e : Event RN) : bool := Rleb (Rabs (cw e)) m.

(** The random numbers in the order in which they are drawn, when event number [i] is to
    get the [i]-th entry of [us]. *)
Definition light_draws (m : R) (events : list (Event RN)) (us : list R) : list R :=
  map snd (filter (fun x => light m (fst x)) (combine events us)).

(** The events that are to be kept: [|w| > m], or the draw of the event is below [|w|]. *)
Definition survivors (m : R) (events : list (Event RN)) (us : list R) : list (Event RN) :=
  map fst (filter (fun x => negb (light m (fst x)) || Rltb (snd x) (Rabs (cw (fst x)))) (combine events us)).

(** The factor that lifts a weight below [m] to [m]. *)
Definition boost (m : R) (e : Event RN) : R := if Rltb (Rabs (cw e)) m then m / Rabs (cw e) else 1.

(** All weights of an event multiplied by [s]; nothing else changed. *)
Definition scaled (s : R) (e : Event RN) : Event RN :=
  mkEvent (ev_id e) (map (fun w => w * s) (ev_weights e)) (ev_out e).
