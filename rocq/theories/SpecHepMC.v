(** Where the weights of a HepMC record are. *)
From Coq Require Import Ascii String List NArith.
From Verif Require Import SpecText SpecFormats.
Import ListNotations.
Open Scope list_scope.

(** The part of the E line before the weights: 'E', ten entries, the number of random states,
    the random states, the number of weights. *)
Definition before_weights (nweights : N) (pre : list ascii) : Prop :=
  exists a nr nrandom b nw, pre = "E"%char :: a ++ nr ++ b ++ nw /\
    entries 10 a /\ number_entry nrandom nr /\ (nrandom < 2 ^ 32)%N /\ entries (N.to_nat nrandom) b /\
    number_entry nweights nw /\ (nweights < 2 ^ 32)%N.

(** The first weight of the record is [tok], with [pre] before and [post] after it. *)
Definition first_weight (record pre tok post : list ascii) : Prop :=
  record = pre ++ tok ++ post /\ word tok /\ heads whitespace post /\
  exists p s n, pre = p ++ s /\ before_weights n p /\ blanks s.

(** The words of a text, each preceded by blanks *)
Inductive word_list : list (list ascii) -> list ascii -> Prop :=
| word_list_nil : word_list [] []
| word_list_cons s e l t : blanks s -> word e -> heads blank t -> word_list l t -> word_list (e :: l) (s ++ e ++ t).

(** The names in the first line starting with 'N': their number, then the names in quotes. *)
Definition quote : ascii := "034"%char.
Inductive quoted_list : list (list ascii) -> list ascii -> Prop :=
| quoted_list_nil : quoted_list [] []
| quoted_list_cons s name l t : blanks s -> ~ In quote name -> quoted_list l t ->
    quoted_list (name :: l) (s ++ quote :: name ++ quote :: t).
Definition names_mark : list ascii := [newline; "N"%char].
Definition weight_names (record : list ascii) (l : list (list ascii)) : Prop :=
  exists a num v t b, record = a ++ names_mark ++ num ++ t ++ b /\
    ~ occurs names_mark (a ++ [newline]) /\ number_entry v num /\ quoted_list l t /\ length l = N.to_nat v.

(** [record'] differs from [record] only in the weights of the E line: in the first one, and in
    those with one of the given names.  (Blanks between the weights and anything after them on
    the same line are not kept.) *)
Definition only_weights_changed (names l : list (list ascii)) (record record' : list ascii) : Prop :=
  exists n pre line line' rest, before_weights n pre /\
    record = pre ++ line ++ rest /\ record' = pre ++ line' ++ rest /\
    ~ In newline line /\ ~ In newline line' /\ begins_with [newline] rest /\
    exists ws ws' text_ws more, line = text_ws ++ more /\ word_list ws text_ws /\ heads whitespace (more ++ rest) /\ word_list ws' line' /\
    length ws = N.to_nat n /\ length ws' = N.to_nat n /\
    forall i, i <> 0 -> (forall name, nth_error l i = Some name -> ~ In name names) ->
        nth_error ws' i = nth_error ws i.
