(** Specification vocabulary for the cell collector. *)
From Verif Require Import Base Num ModelCollector.

Section Spec.
Context {N : NumOps}.
Implicit Types cs : list (CellInfo N).

(** [(i, ids)] describes cell number [i] of [cs]. *)
Definition describes cs (e : nat * list nat) : Prop :=
  exists c, nth_error cs (fst e) = Some c /\ c_ids c = snd e.

(** The table [t] lists the ten largest cells of [cs] by [val], or all of them if there are
    fewer: every entry is a cell with its value, no cell occurs twice, and no cell that does
    not occur is larger than one that does. *)
Definition ten_largest {V : Type} (less : V -> V -> bool) (val : CellInfo N -> V) cs (t : table V) : Prop :=
  length t = Nat.min 10 (length cs) /\
  NoDup (map (fun e => snd (fst e)) t) /\
  (forall v i ids, In ((v, i), ids) t ->
     exists c, nth_error cs i = Some c /\ val c = v /\ c_ids c = ids) /\
  (forall i c, nth_error cs i = Some c -> ~ In i (map (fun e => snd (fst e)) t) ->
     forall v j ids, In ((v, j), ids) t -> less v (val c) = false).

(** The first ten cells, in order. *)
Definition first_ten cs (l : list (nat * list nat)) : Prop :=
  l = firstn 10 (List.combine (seq 0 (length cs)) (map c_ids cs)).

(** Ten different cells. *)
Definition ten_different cs (l : list (nat * list nat)) : Prop :=
  length l = Nat.min 10 (length cs) /\ NoDup (map fst l) /\ Forall (describes cs) l.

(** The collector after observing [cs]; [draw i] is the random number drawn for cell [i]. *)
Fixpoint collect_all (draw : nat -> nat) (n : nat) cs (c : Collector N) : option (Collector N) :=
  match cs with
  | [] => Some c
  | x :: cs' => match collect c x (draw n) with None => None | Some c' => collect_all draw (S n) cs' c' end
  end.

(** What the collector should hold. *)
Definition good_collection cs (c : Collector N) : Prop :=
  co_count c = length cs /\
  first_ten cs (co_first c) /\ ten_different cs (co_random c) /\
  ten_largest nltb c_radius cs (co_radius c) /\
  ten_largest Nat.ltb (fun x => length (c_ids x)) cs (co_members c) /\
  ten_largest nltb c_weight cs (co_weight c).
End Spec.

(** All sequences of [n] draws where the i-th is one of [0..=i]; each is equally likely. *)
Fixpoint all_draws (n : nat) : list (list nat) :=
  match n with
  | 0 => [[]]
  | S m => flat_map (fun ds => map (fun d => ds ++ [d]) (seq 0 (S m))) (all_draws m)
  end.

(** [c] holds cell number [n] with the events [ids]. *)
Definition holds {N : NumOps} (c : Collector N) (n : nat) (ids : list nat) : Prop :=
  In (n, ids) (co_first c) \/ In (n, ids) (co_random c) \/
  (exists r, In ((r, n), ids) (co_radius c)) \/ (exists m, In ((m, n), ids) (co_members c)) \/
  (exists w, In ((w, n), ids) (co_weight c)).

(** [m] is the element in the middle of the sorted list [l]. *)
Definition is_median {N : NumOps} (l : list N) (m : N) : Prop :=
  exists s, Permutation l s /\ ordered nleb s /\ nth_error s (length l / 2) = Some m.
