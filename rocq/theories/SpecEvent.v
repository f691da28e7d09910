(** Specification vocabulary for events. *)
From Coq Require Import ZArith.
From Verif Require Import Base Num ModelEvent.

(** A domain of numbers on which [<=], [<] and [==] fit together (binary64 without NaN). *)
Definition cmp_on (N : NumOps) (D : N -> Prop) : Prop :=
  order_on N D /\ forall x y : N, D x -> D y -> neqb x y = nleb x y && nleb y x.

(** The five numbers stored for a momentum: pt, E, px, py, pz. *)
Definition coords {N : NumOps} (p : FourVector N) : list N :=
  [fv_pt p; fv_e p; fv_x p; fv_y p; fv_z p].
Definition mom_in {N : NumOps} (D : N -> Prop) (p : FourVector N) : Prop := Forall D (coords p).

(** Lexicographic order. *)
Fixpoint lex_le {N : NumOps} (l l' : list N) : Prop :=
  match l, l' with
  | [], _ => True
  | a :: t, b :: t' => nltb a b = true \/ (neqb a b = true /\ lex_le t t')
  | _ :: _, [] => False
  end.
Definition mom_le {N : NumOps} (p q : FourVector N) : Prop := lex_le (coords p) (coords q).

(** Two momenta that compare equal (identical except possibly for the sign of zeros). *)
Definition mom_eqv {N : NumOps} (p q : FourVector N) : Prop :=
  Forall2 (fun a b => neqb a b = true) (coords p) (coords q).

(** The list of single particles behind a list of momenta grouped by particle id. *)
Definition particles_of {A} (out : list (Z * list A)) : list (Z * A) :=
  flat_map (fun '(id, ps) => map (pair id) ps) out.

(** Well-formed grouping: ids strictly decreasing; for each id at least one momentum, and
    the momenta in decreasing order. *)
Definition grouped {N : NumOps} (out : list (Z * list (FourVector N))) : Prop :=
  StronglySorted (fun g h => (fst h < fst g)%Z) out /\
  Forall (fun g => snd g <> [] /\ StronglySorted (fun p q => mom_le q p) (snd g)) out.

(** The momenta of particles with a given id. *)
Definition with_id {A} (id : Z) (ps : list (Z * A)) : list A :=
  map snd (filter (fun x => Z.eqb (fst x) id) ps).

(** An event builder to which the given particles and weights were added in this order. *)
Definition made {N : NumOps} (mw : bool) (particles : list (Z * FourVector N)) (weights : list N)
  : EventBuilder N :=
  fold_left (add_weight mw) weights
    (fold_left (fun b x => add_outgoing b (fst x) (snd x)) particles (builder_new mw)).
