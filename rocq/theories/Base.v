(** Shared list vocabulary: the Rust standard-library operations used by the code
    (slices, [Vec::swap], [Vec::swap_remove], sorting) as total functions.
    [None] stands for a Rust panic throughout the model, unless a comment says
    otherwise. *)
From Coq Require Export List Arith Lia Bool Permutation Sorted RelationClasses.
Export ListNotations.
Set Implicit Arguments.

(** [v[i] = x]; panics when [i] is out of range. *)
Fixpoint set_nth {A} (i : nat) (x : A) (l : list A) : option (list A) :=
  match l, i with
  | [], _ => None
  | _ :: t, 0 => Some (x :: t)
  | a :: t, S j => match set_nth j x t with Some t' => Some (a :: t') | None => None end
  end.

(** [v.swap(i, j)]; panics when an index is out of range. *)
Definition swap {A} (i j : nat) (l : list A) : option (list A) :=
  match nth_error l i, nth_error l j with
  | Some x, Some y =>
      match set_nth i y l with Some l' => set_nth j x l' | None => None end
  | _, _ => None
  end.

(** [v.swap_remove(i)]: remove the element at [i], moving the last element into its
    place; panics when [i] is out of range. *)
Definition swap_remove {A} (i : nat) (l : list A) : option (list A) :=
  match nth_error l i with
  | None => None
  | Some _ =>
      let n := length l - 1 in
      match nth_error l n with
      | None => None
      | Some last => if Nat.eqb i n then Some (firstn n l) else set_nth i last (firstn n l)
      end
  end.

(** A comparison that is a total preorder on the elements satisfying [P].  This is what
    Rust requires of the comparison passed to a sort. *)
Definition total_preorder_on {A} (P : A -> Prop) (leb : A -> A -> bool) : Prop :=
  (forall x y, P x -> P y -> leb x y = true \/ leb y x = true) /\
  (forall x y z, P x -> P y -> P z -> leb x y = true -> leb y z = true -> leb x z = true).

Definition ordered {A} (leb : A -> A -> bool) (l : list A) : Prop :=
  StronglySorted (fun x y => leb x y = true) l.

(** An arbitrary sorting algorithm, standing for [sort_unstable_by],
    [par_sort_unstable_by], [sort_unstable_by_key]...: it returns *some* sorted
    permutation; nothing is said about the order of equal elements. *)
Definition sorter := forall A : Type, (A -> A -> bool) -> list A -> list A.

Definition sort_ok (sort : sorter) : Prop :=
  forall A (leb : A -> A -> bool) (l : list A),
    total_preorder_on (fun x => In x l) leb ->
    Permutation l (sort A leb l) /\ ordered leb (sort A leb l).

(** Insertion sort: one such algorithm, used to run the model and wherever elements that
    compare equal are identical (so that all sorting algorithms agree). *)
Fixpoint insert {A} (leb : A -> A -> bool) (x : A) (l : list A) : list A :=
  match l with
  | [] => [x]
  | y :: t => if leb x y then x :: l else y :: insert leb x t
  end.

Definition isort : sorter := fun A leb l => fold_right (insert leb) [] l.

(** Monadic traversal; [None] is a panic. *)
Fixpoint omap {A B} (f : A -> option B) (l : list A) : option (list B) :=
  match l with
  | [] => Some []
  | a :: t =>
      match f a with
      | None => None
      | Some b => match omap f t with None => None | Some bs => Some (b :: bs) end
      end
  end.

Fixpoint ofold {A S} (f : S -> A -> option S) (l : list A) (s : S) : option S :=
  match l with
  | [] => Some s
  | a :: t => match f s a with None => None | Some s' => ofold f t s' end
  end.

(** Closed computation: both sides are compared by the kernel's virtual machine. *)
Ltac vmr := cbv zeta; match goal with |- _ = ?r => vm_cast_no_check (eq_refl r) end.
