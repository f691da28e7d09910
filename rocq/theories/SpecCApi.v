(** What a C program sees. *)
From Coq Require Import ZArith Ascii.
From Verif Require Import Base Num ModelEvent ModelCApi.

(** The bytes of memory from address [a] on *)
Definition bytes_at (mem : bytes) (a : Z) (l : list ascii) : Prop :=
  forall i c, nth_error l i = Some c -> mem (a + Z.of_nat i)%Z = c.
(** The two memories differ only within [n] bytes from address [a] on. *)
Definition only_changed (mem mem' : bytes) (a : Z) (n : nat) : Prop :=
  forall b, (b < a \/ a + Z.of_nat n <= b)%Z -> mem' b = mem b.

(** Text of the most recent error in a thread, given all calls so far, the most recent one first *)
Fixpoint last_error (thread : nat) (calls : list call) : option (list ascii) :=
  match calls with
  | [] => None
  | CallRun t (Failed msg) :: earlier => if Nat.eqb t thread then Some msg else last_error thread earlier
  | CallRun t Panicked :: earlier => if Nat.eqb t thread then Some panic_text else last_error thread earlier
  | _ :: earlier => last_error thread earlier
  end.

Section Views.
Context {N : NumOps}.
(** A C program that follows the documented structure of the view finds these weights. *)
Definition shows_weights (m : memory N) (v : EventView) (weights : list N) : Prop :=
  vw_n_weights v = length weights /\
  forall i w, nth_error weights i = Some w -> m_at m (vw_weights v + Z.of_nat i)%Z = Some (WNum w).
(** It finds a momentum [E, px, py, pz] at address [a]. *)
Definition shows_momentum (m : memory N) (a : Z) (p : FourVector N) : Prop :=
  m_at m a = Some (WNum (fv_e p)) /\ m_at m (a + 1)%Z = Some (WNum (fv_x p)) /\
  m_at m (a + 2)%Z = Some (WNum (fv_y p)) /\ m_at m (a + 3)%Z = Some (WNum (fv_z p)).
(** It finds these particle ids and momenta. *)
Definition shows_particles (m : memory N) (v : EventView) (out : list (Z * list (FourVector N))) : Prop :=
  vw_n_type_sets v = length out /\
  forall i id ps, nth_error out i = Some (id, ps) -> exists a,
    let s := (vw_type_sets v + 3 * Z.of_nat i)%Z in
    m_at m s = Some (WPid id) /\ m_at m (s + 1)%Z = Some (WAddr a) /\ m_at m (s + 2)%Z = Some (WLen (length ps)) /\
    forall k p, nth_error ps k = Some p -> shows_momentum m (a + 4 * Z.of_nat k) p.
End Views.
