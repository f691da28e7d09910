(** Model of src/c_api: error messages, return codes, views of events. *)
From Coq Require Import ZArith Ascii String.
From Verif Require Import Base Num ModelEvent.

Section Errors.
(** Memory of the C program: a byte for each address *)
Definition bytes := Z -> ascii.

(** [std::ptr::copy_nonoverlapping(src, buf, len)] where src holds the bytes [msg] *)
Definition copy_bytes (mem : bytes) (msg : list ascii) (buf : Z) (len : nat) : bytes := fun a =>
  if (buf <=? a)%Z && (a <? buf + Z.of_nat len)%Z then nth (Z.to_nat (a - buf)) msg zero else mem a.
(** [*buf.add(i) = c] *)
Definition write_byte (mem : bytes) (a : Z) (c : ascii) : bytes := fun b => if (b =? a)%Z then c else mem b.

(** [n as i32] for an unsigned number: the low 32 bits, in two's complement *)
Definition as_i32 (n : nat) : Z := ((Z.of_nat n + 2 ^ 31) mod 2 ^ 32 - 2 ^ 31)%Z.

(** src/c_api/error.rs:49-75 [cres_last_err_internal]; [err]: text of the thread-local LAST_ERROR *)
Definition last_err_internal (err : option (list ascii)) (mem : bytes) (buf : Z) (buflen : nat) : bytes * Z :=
  match err with
  | Some msg =>
      let msg_len := length msg in
      if Nat.eqb buflen 0 then (mem, as_i32 (1 + msg_len))
      else
        let len := Nat.min msg_len (buflen - 1) in
        let mem := copy_bytes mem msg buf len in
        let mem := write_byte mem (buf + Z.of_nat len) zero in
        (mem, if buflen <=? msg_len then as_i32 (1 + msg_len) else 0%Z)
  | None => (mem, 0%Z)
  end.

(** src/c_api/error.rs:6-10: one LAST_ERROR for each thread *)
Definition errors := nat -> option (list ascii).
Definition set_error (s : errors) (thread : nat) (msg : list ascii) : errors :=
  fun t => if Nat.eqb t thread then Some msg else s t.

(** How [cres_run_internal] ended: success, an error with its text, a panic *)
Inductive run_end := Finished | Failed (msg : list ascii) | Panicked.
(** The text of [anyhow!("panic: {:?}", err)] for the payload [err : Box<dyn Any + Send>] *)
Definition panic_text : list ascii := list_ascii_of_string "panic: Any { .. }".

(** src/c_api/cres.rs:121-134 [cres_run], called on [thread] *)
Definition cres_run (s : errors) (thread : nat) (e : run_end) : errors * Z :=
  match e with
  | Finished => (s, 0%Z)
  | Failed msg => (set_error s thread msg, 1%Z)
  | Panicked => (set_error s thread panic_text, (-1)%Z)
  end.
(** src/c_api/error.rs:36-47 [cres_get_last_err].  It never panics: the message is read without other
    borrows of LAST_ERROR. *)
Definition cres_get_last_err (s : errors) (thread : nat) (mem : bytes) (buf : Z) (buflen : nat) : bytes * Z :=
  last_err_internal (s thread) mem buf buflen.

(** Calls of the C program: runs and requests for the error message *)
Inductive call := CallRun (thread : nat) (e : run_end) | CallGet (thread : nat) (buf : Z) (buflen : nat).
Definition do_call (s : errors * bytes) (c : call) : errors * bytes :=
  match c with
  | CallRun t e => (fst (cres_run (fst s) t e), snd s)
  | CallGet t buf buflen => (fst s, fst (cres_get_last_err (fst s) t (snd s) buf buflen))
  end.
End Errors.

(** ** Views of events *)
Section Views.
Context (N : NumOps).

(** Memory in units of 8 bytes.  A word holds a double, an address, a length, or a particle id (with
    padding); reading a double from a word that holds something else is not meaningful. *)
Inductive word := WNum (x : N) | WAddr (a : Z) | WLen (n : nat) | WPid (id : Z).
(** Simplification: memory is allocated at increasing addresses and not freed. *)
Record memory := mkMem { m_at : Z -> option word; m_next : Z }.
Fixpoint store (f : Z -> option word) (a : Z) (ws : list word) : Z -> option word :=
  match ws with
  | [] => f
  | w :: t => store (fun b => if (b =? a)%Z then Some w else f b) (a + 1) t
  end.
Definition alloc (m : memory) (ws : list word) : Z * memory :=
  (m_next m, mkMem (store (m_at m) (m_next m) ws) (m_next m + Z.of_nat (length ws))).

(** src/c_api/event.rs:25-46 *)
Record TypeSetView := mkTypeSetView { tv_pid : Z; tv_momenta : Z; tv_n_momenta : nat }.
(** src/c_api/event.rs:9-23 *)
Record EventView := mkEventView { vw_id : nat; vw_weights : Z; vw_type_sets : Z; vw_n_weights : nat; vw_n_type_sets : nat }.

(** src/event.rs:116-150: where the part [weights] of an event is: with feature "multiweight", which the
    C API requires, [Weights(Box<[N64]>)] consists of the address of the weights and their number.
    [place]: address of the [Weights] inside the event *)
Definition weights_at (m : memory) (place : Z) (weights : list N) : Prop :=
  exists a, m_at m place = Some (WAddr a) /\ m_at m (place + 1)%Z = Some (WLen (length weights)) /\
    forall i w, nth_error weights i = Some w -> m_at m (a + Z.of_nat i)%Z = Some (WNum w).

(** src/c_api/distance.rs:70-82 [extract_typesets] followed by [TypeSet::view]
    (src/c_api/event.rs:60-70) of each: the momenta are copied to new memory *)
Definition momentum_words (p : FourVector N) : list word := [WNum (fv_e p); WNum (fv_x p); WNum (fv_y p); WNum (fv_z p)].
Definition view_words (v : TypeSetView) : list word := [WPid (tv_pid v); WAddr (tv_momenta v); WLen (tv_n_momenta v)].
Fixpoint type_set_views (m : memory) (out : list (Z * list (FourVector N))) : list TypeSetView * memory :=
  match out with
  | [] => ([], m)
  | (id, ps) :: t =>
      let '(a, m) := alloc m (flat_map momentum_words ps) in
      let '(vs, m) := type_set_views m t in
      (mkTypeSetView id a (length ps) :: vs, m)
  end.
(** src/c_api/distance.rs:43-52: the view passed to the distance function of the C program.
    [place]: what [ev.weights.data_ptr()] points to, the [Weights] inside the lock *)
Definition event_view (m : memory) (ev : Event N) (place : Z) : EventView * memory :=
  let '(vs, m) := type_set_views m (ev_out ev) in
  let '(a, m) := alloc m (flat_map view_words vs) in
  (mkEventView (ev_id ev) place a (length (ev_weights ev)) (length vs), m).

(** src/c_api/distance.rs:39-67 [DistanceFn::distance]: [fun] is the function of the C program *)
Definition c_distance (fun_ : memory -> EventView -> EventView -> N) (m : memory) (ev1 ev2 : Event N) (place1 place2 : Z) : N :=
  let '(v1, m) := event_view m ev1 place1 in
  let '(v2, m) := event_view m ev2 place2 in
  fun_ m v1 v2.

(** Reading memory; None: not allocated, or not of the right type (undefined behaviour) *)
Definition read_num (m : memory) (a : Z) : option N := match m_at m a with Some (WNum x) => Some x | _ => None end.
Definition read_view (m : memory) (a : Z) : option TypeSetView :=
  match m_at m a, m_at m (a + 1)%Z, m_at m (a + 2)%Z with
  | Some (WPid id), Some (WAddr b), Some (WLen n) => Some (mkTypeSetView id b n)
  | _, _, _ => None
  end.
Definition read_momentum (m : memory) (a : Z) : option (FourVector N) :=
  match read_num m a, read_num m (a + 1)%Z, read_num m (a + 2)%Z, read_num m (a + 3)%Z with
  | Some e, Some x, Some y, Some z => Some (fv_from e x y z)
  | _, _, _, _ => None
  end.
(** [for n in 0..len { f(n) }] where f may be undefined *)
Definition for_each {S} (len : nat) (f : nat -> S -> option S) (s : S) : option S :=
  fold_left (fun s n => match s with Some s => f n s | None => None end) (seq 0 len) (Some s).

(** src/c_api/event.rs:83-121 [From<EventView> for Event] *)
Definition event_of_view (sort : sorter) (m : memory) (v : EventView) : option (Event N) :=
  match for_each (vw_n_weights v) (fun n b =>
      match read_num m (vw_weights v + Z.of_nat n)%Z with Some w => Some (add_weight true b w) | None => None end) (builder_new true) with
  | None => None
  | Some b =>
      match for_each (vw_n_type_sets v) (fun n b =>
          match read_view m (vw_type_sets v + 3 * Z.of_nat n)%Z with
          | Some s => for_each (tv_n_momenta s) (fun k b =>
              match read_momentum m (tv_momenta s + 4 * Z.of_nat k)%Z with
              | Some p => Some (add_outgoing b (tv_pid s) p)
              | None => None
              end) b
          | None => None
          end) b with
      | None => None
      | Some b => let ev := build sort b in Some (mkEvent (vw_id v) (ev_weights ev) (ev_out ev))
      end
  end.
End Views.
Arguments WNum {N}. Arguments WAddr {N}. Arguments WLen {N}. Arguments WPid {N}.
Arguments mkMem {N}. Arguments m_at {N}. Arguments m_next {N}. Arguments store {N}. Arguments alloc {N}.
Arguments weights_at {N}. Arguments momentum_words {N}. Arguments view_words {N}. Arguments type_set_views {N}.
Arguments event_view {N}. Arguments c_distance {N}. Arguments read_num {N}. Arguments read_view {N}. Arguments read_momentum {N}.
Arguments event_of_view {N}.
