(** Model of src/unweight.rs with the checks that [N64] makes in debug builds: results that are NaN
    panic.  ModelUnweight.v has no such checks. *)
From Verif Require Import Base Num ModelEvent ModelUnweight.

Section Unweight.
(** [checks]: debug assertions; [psum]: as in ModelUnweight.v *)
Context (N : NumOps) (checks : bool) (psum : list N -> N).

(** A result of type [N64].  NaN is what is not equal to itself. *)
Definition checked (x : N) : option N := if checks && negb (neqb x x) then None else Some x.

(** src/event.rs:185-189 [Event::rescale_weights] *)
Definition rescale_checked (ev : Event N) (s : N) : option (Event N) :=
  match omap (fun w => checked (nmul w s)) (ev_weights ev) with
  | Some ws => Some (mkEvent (ev_id ev) ws (ev_out ev))
  | None => None
  end.

(** src/unweight.rs:57-63 *)
Definition lift_checked (min_wt : N) (e : Event N) : option (Event N) :=
  match ev_weight e with
  | None => None
  | Some wt =>
      let awt := nabs wt in
      if nltb awt min_wt then
        match checked (ndiv min_wt awt) with Some f => rescale_checked e f | None => None end
      else Some e
  end.

(** [Uniform::try_from(0.0..min_wt)], line 42, fails unless [min_wt] is positive and finite *)
Definition uniform_ok (min_wt : N) : bool := nltb n0 min_wt && neqb (nsub min_wt min_wt) n0.

(** src/unweight.rs:34-72 [Unweighter::unweight].  Simplification: sums are only checked as a whole
    (a sum is NaN if a partial sum is). *)
Definition unweight_checked (min_wt : N) (draws : nat -> N) (events : list (Event N)) : option (list (Event N) * nat) :=
  if neqb min_wt n0 || (length events =? 0) then Some (events, 0)
  else
    match omap ev_weight events with
    | None => None
    | Some wts =>
        match checked (psum wts) with
        | None => None
        | Some orig_wt_sum =>
            if negb (uniform_ok min_wt) then None
            else
              match retain_loop min_wt draws 0 events with
              | None => None
              | Some (kept, k) =>
                  match omap (lift_checked min_wt) kept with
                  | None => None
                  | Some lifted =>
                      match omap ev_weight lifted with
                      | None => None
                      | Some wts' =>
                          match checked (psum wts') with
                          | None => None
                          | Some final_wt_sum =>
                              match checked (ndiv orig_wt_sum final_wt_sum) with
                              | None => None
                              | Some reweight =>
                                  match omap (fun e => rescale_checked e reweight) lifted with
                                  | Some out => Some (out, k)
                                  | None => None
                                  end
                              end
                          end
                      end
                  end
              end
        end
    end.
End Unweight.
Arguments checked {N}. Arguments rescale_checked {N}. Arguments lift_checked {N}. Arguments uniform_ok {N}. Arguments unweight_checked {N}.
