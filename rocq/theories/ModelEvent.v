(** Model of src/four_vector.rs and src/event.rs. *)
From Coq Require Import ZArith.
From Verif Require Import Base Num.

Section Event.
Context (N : NumOps).

(** src/four_vector.rs:21-24  [struct FourVector { pt, p: [N64; 4] }] *)
Record FourVector := mkFV { fv_pt : N; fv_e : N; fv_x : N; fv_y : N; fv_z : N }.

(** src/four_vector.rs:60-62  [update_pt] *)
Definition update_pt (p : FourVector) : FourVector :=
  mkFV (nsqrt (nadd (nmul (fv_x p) (fv_x p)) (nmul (fv_y p) (fv_y p))))
       (fv_e p) (fv_x p) (fv_y p) (fv_z p).

(** src/four_vector.rs:28-30 [FourVector::new] (derived [Default]: all zero) *)
Definition fv_new : FourVector := mkFV n0 n0 n0 n0 n0.

(** src/four_vector.rs:65-74  [From<[N64; 4]>] *)
Definition fv_from (e x y z : N) : FourVector := update_pt (mkFV n0 e x y z).

(** src/four_vector.rs:84-91 and 102-109 [AddAssign], [Add] *)
Definition fv_add (p q : FourVector) : FourVector :=
  update_pt (mkFV (fv_pt p) (nadd (fv_e p) (fv_e q)) (nadd (fv_x p) (fv_x q))
                  (nadd (fv_y p) (fv_y q)) (nadd (fv_z p) (fv_z q))).

(** src/four_vector.rs:93-100 and 111-118 [SubAssign], [Sub] *)
Definition fv_sub (p q : FourVector) : FourVector :=
  update_pt (mkFV (fv_pt p) (nsub (fv_e p) (fv_e q)) (nsub (fv_x p) (fv_x q))
                  (nsub (fv_y p) (fv_y q)) (nsub (fv_z p) (fv_z q))).

(** src/four_vector.rs:37-39 *)
Definition euclid_norm_sq (p : FourVector) : N :=
  nsum [nmul (fv_e p) (fv_e p); nmul (fv_x p) (fv_x p);
        nmul (fv_y p) (fv_y p); nmul (fv_z p) (fv_z p)].

(** src/four_vector.rs:47-49 *)
Definition spatial_norm_sq (p : FourVector) : N :=
  nsum [nmul (fv_x p) (fv_x p); nmul (fv_y p) (fv_y p); nmul (fv_z p) (fv_z p)].

(** src/four_vector.rs:33-35, 42-44 *)
Definition euclid_norm (p : FourVector) : N := nsqrt (euclid_norm_sq p).
Definition spatial_norm (p : FourVector) : N := nsqrt (spatial_norm_sq p).

(** [Ord::cmp] of [N64] (noisy_float: [<], then [==], else greater). *)
Definition ncmp (a b : N) : comparison :=
  if nltb a b then Lt else if neqb a b then Eq else Gt.

Fixpoint lex_cmp (l l' : list N) : comparison :=
  match l, l' with
  | [], [] => Eq
  | [], _ :: _ => Lt
  | _ :: _, [] => Gt
  | a :: t, b :: t' => match ncmp a b with Eq => lex_cmp t t' | c => c end
  end.

(** src/four_vector.rs:9-20  derived [Ord]: lexicographic in the order of the fields
    ([pt] first, then the four components). *)
Definition fv_cmp (p q : FourVector) : comparison :=
  lex_cmp [fv_pt p; fv_e p; fv_x p; fv_y p; fv_z p]
          [fv_pt q; fv_e q; fv_x q; fv_y q; fv_z q].

Definition leb_of (c : comparison) : bool := match c with Gt => false | _ => true end.

Definition fv_leb (p q : FourVector) : bool := leb_of (fv_cmp p q).

(** src/event.rs:16-27 [EventBuilder].  [ParticleID] is an [i32] with the derived order:
    an integer here.  The build configuration is the boolean [mw] (feature
    "multiweight"); without it the weights are one number, here a list of length one. *)
Record EventBuilder := mkBuilder {
  b_weights : list N;
  b_out : list (Z * FourVector)
}.

(** src/event.rs:31-36 (and 39-44; the reserved capacity is not modelled) *)
Definition builder_new (mw : bool) : EventBuilder :=
  mkBuilder (if mw then [] else [n0]) [].

(** src/event.rs:50-57 *)
Definition add_outgoing (b : EventBuilder) (pid : Z) (p : FourVector) : EventBuilder :=
  mkBuilder (b_weights b) (b_out b ++ [(pid, p)]).

(** src/event.rs:62-70 *)
Definition add_weight (mw : bool) (b : EventBuilder) (w : N) : EventBuilder :=
  mkBuilder (if mw then b_weights b ++ [w] else [w]) (b_out b).

(** src/event.rs:73-78 *)
Definition rescale_energies (b : EventBuilder) (s : N) : EventBuilder :=
  mkBuilder (b_weights b)
    (map (fun '(pid, p) => (pid, fv_from (nmul s (fv_e p)) (nmul s (fv_x p))
                                         (nmul s (fv_y p)) (nmul s (fv_z p)))) (b_out b)).

(** src/event.rs:103  [b.cmp(a)] on pairs: descending lexicographic order *)
Definition out_geb (a b : Z * FourVector) : bool :=
  match Z.compare (fst b) (fst a) with
  | Lt => true
  | Gt => false
  | Eq => fv_leb (snd b) (snd a)
  end.

(** src/event.rs:105-110  one iteration of the loop ([last_mut], push) *)
Definition push_group (acc : list (Z * list FourVector)) (x : Z * FourVector)
  : list (Z * list FourVector) :=
  match rev acc with
  | (pid, v) :: r =>
      if Z.eqb pid (fst x) then rev r ++ [(pid, v ++ [snd x])]
      else acc ++ [(fst x, [snd x])]
  | [] => acc ++ [(fst x, [snd x])]
  end.

(** src/event.rs:100-117  [compress_outgoing] *)
Definition compress_outgoing (sort : sorter) (out : list (Z * FourVector))
  : list (Z * list FourVector) :=
  fold_left push_group (sort _ out_geb out) [].

(** src/event.rs:122-131 [struct Event] *)
Record Event := mkEvent {
  ev_id : nat;
  ev_weights : list N;
  ev_out : list (Z * list FourVector)
}.

(** src/event.rs:81-91 [EventBuilder::build] *)
Definition build (sort : sorter) (b : EventBuilder) : Event :=
  mkEvent 0 (b_weights b) (compress_outgoing sort (b_out b)).

(** [slice::binary_search_by] of the Rust standard library (1.82): [cmp] says how an
    element compares to the target; the loop halves [size] keeping [base]. *)
Fixpoint bsearch_loop {A} (fuel : nat) (cmp : A -> comparison) (l : list A)
    (base size : nat) : nat :=
  match fuel with
  | 0 => base
  | S fuel =>
      if size <=? 1 then base
      else
        let half := size / 2 in
        let mid := base + half in
        match nth_error l mid with
        | None => base
        | Some x =>
            bsearch_loop fuel cmp l
              (match cmp x with Gt => base | _ => mid end) (size - half)
        end
  end.

Definition binary_search_by {A} (cmp : A -> comparison) (l : list A) : option nat :=
  let base := bsearch_loop (length l) cmp l 0 (length l) in
  match nth_error l base with
  | Some x => match cmp x with Eq => Some base | _ => None end
  | None => None
  end.

(** src/event.rs:158-167 [outgoing_with_pid] *)
Definition outgoing_with_pid (ev : Event) (pid : Z) : list FourVector :=
  match binary_search_by (fun probe => Z.compare pid (fst probe)) (ev_out ev) with
  | Some idx => match nth_error (ev_out ev) idx with Some (_, v) => v | None => [] end
  | None => []
  end.

(** src/event.rs:234-240 [Weights::central]; panics on an empty weight vector *)
Definition central (w : list N) : option N := nth_error w 0.

(** src/event.rs:170-172 [Event::weight] *)
Definition ev_weight (ev : Event) : option N := central (ev_weights ev).

(** src/event.rs:185-189 [Event::rescale_weights] *)
Definition rescale_weights (ev : Event) (s : N) : Event :=
  mkEvent (ev_id ev) (map (fun w => nmul w s) (ev_weights ev)) (ev_out ev).

(** src/event.rs:207, 221 derived [Default] of [Weights] *)
Definition weights_default (mw : bool) : list N := if mw then [] else [n0].

(** src/event.rs:252-254 [Weights::is_empty] *)
Definition weights_is_empty (w : list N) : bool :=
  match w with [] => true | _ => false end.

(** src/event.rs:286-293 [AddAssign]: [zip_eq] panics on different lengths *)
Fixpoint weights_add (l r : list N) : option (list N) :=
  match l, r with
  | [], [] => Some []
  | a :: t, b :: t' =>
      match weights_add t t' with Some s => Some (nadd a b :: s) | None => None end
  | _, _ => None
  end.

(** src/event.rs:275-283 [copy_from]: [copy_from_slice] panics on different lengths *)
Definition weights_copy_from (dst src : list N) : option (list N) :=
  if Nat.eqb (length dst) (length src) then Some src else None.

End Event.

Arguments mkFV {N}. Arguments fv_pt {N}. Arguments fv_e {N}. Arguments fv_x {N}.
Arguments fv_y {N}. Arguments fv_z {N}.
Arguments mkEvent {N}. Arguments ev_id {N}. Arguments ev_weights {N}. Arguments ev_out {N}.
Arguments mkBuilder {N}. Arguments b_weights {N}. Arguments b_out {N}.
Arguments central {N}. Arguments ev_weight {N}. Arguments weights_add {N}.
Arguments weights_copy_from {N}. Arguments weights_is_empty {N}.
Arguments update_pt {N}. Arguments fv_new {N}. Arguments fv_from {N}. Arguments fv_add {N}.
Arguments fv_sub {N}. Arguments spatial_norm_sq {N}. Arguments euclid_norm_sq {N}.
Arguments ncmp {N}. Arguments lex_cmp {N}. Arguments fv_cmp {N}. Arguments fv_leb {N}.
Arguments builder_new {N}. Arguments add_outgoing {N}. Arguments add_weight {N}.
Arguments rescale_energies {N}. Arguments out_geb {N}. Arguments push_group {N}.
Arguments compress_outgoing {N}. Arguments build {N}. Arguments outgoing_with_pid {N}.
Arguments rescale_weights {N}. Arguments weights_default {N}.
