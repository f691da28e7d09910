(** Model of src/unweight.rs. *)
From Verif Require Import Base Num ModelEvent.

Section Unweight.
Context (N : NumOps).

(** [par_iter().map(..).sum()]: a sum in unspecified order and bracketing *)
Context (psum : list N -> N).

(** src/unweight.rs:44-54  the closure [keep], called by [retain] on the events in order.
    [draws k] is the number returned by the [k]-th call of [distr.sample]; [k] counts the
    calls. *)
Fixpoint retain_loop (min_wt : N) (draws : nat -> N) (k : nat) (events : list (Event N))
  : option (list (Event N) * nat) :=
  match events with
  | [] => Some ([], k)
  | e :: t =>
      match ev_weight e with
      | None => None
      | Some wt =>
          let awt := nabs wt in
          if nltb min_wt awt then
            match retain_loop min_wt draws k t with
            | Some (r, k') => Some (e :: r, k')
            | None => None
            end
          else
            match retain_loop min_wt draws (S k) t with
            | Some (r, k') => Some (if nltb (draws k) awt then e :: r else r, k')
            | None => None
            end
      end
  end.

(** src/unweight.rs:57-63 *)
Definition lift_weight (min_wt : N) (e : Event N) : option (Event N) :=
  match ev_weight e with
  | None => None
  | Some wt =>
      let awt := nabs wt in
      Some (if nltb awt min_wt then rescale_weights e (ndiv min_wt awt) else e)
  end.

(** src/unweight.rs:34-72 [Unweighter::unweight].  The second result is the number of
    random numbers drawn.  Line 42: [Uniform::try_from(0.0..min_wt)] fails, and [unwrap]
    panics, unless [0 < min_wt] (and unless [min_wt] is finite, which is not modelled). *)
Definition unweight (min_wt : N) (draws : nat -> N) (events : list (Event N))
  : option (list (Event N) * nat) :=
  if neqb min_wt n0 || (length events =? 0) then Some (events, 0)
  else
    match omap ev_weight events with
    | None => None
    | Some wts =>
        let orig_wt_sum := psum wts in
        if negb (nltb n0 min_wt) then None
        else
          match retain_loop min_wt draws 0 events with
          | None => None
          | Some (kept, k) =>
              match omap (lift_weight min_wt) kept with
              | None => None
              | Some lifted =>
                  match omap ev_weight lifted with
                  | None => None
                  | Some wts' =>
                      let final_wt_sum := psum wts' in
                      let reweight := ndiv orig_wt_sum final_wt_sum in
                      Some (map (fun e => rescale_weights e reweight) lifted, k)
                  end
              end
          end
    end.

(** src/unweight.rs:75-86 [NoUnweighter] *)
Definition no_unweight (events : list (Event N)) : option (list (Event N)) := Some events.

End Unweight.
Arguments retain_loop {N}. Arguments lift_weight {N}. Arguments unweight {N}. Arguments no_unweight {N}.
