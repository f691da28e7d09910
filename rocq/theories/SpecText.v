(** Words for properties of texts, independent of the model. *)
From Coq Require Import List Ascii NArith.
Import ListNotations.

Definition occurs (m t : list ascii) : Prop := exists a b, t = a ++ m ++ b.
Definition begins_with (m t : list ascii) : Prop := exists b, t = m ++ b.
Definition finishes_with (m t : list ascii) : Prop := exists a, t = a ++ m.
(** every element but the last satisfies [P] *)
Definition all_but_last {A} (P : A -> Prop) (l : list A) : Prop :=
  forall a x b, l = a ++ x :: b -> b <> [] -> P x.

(** *** Entries of a line *)
Definition blank (c : ascii) : Prop := c = " "%char \/ c = "009"%char.
Definition whitespace (c : ascii) : Prop :=
  blank c \/ c = "010"%char \/ c = "012"%char \/ c = "013"%char.
Definition blanks (s : list ascii) : Prop := s <> [] /\ Forall blank s.
Definition word (e : list ascii) : Prop := e <> [] /\ Forall (fun c => ~ whitespace c) e.
(** empty, or starting with a character for which [P] holds *)
Definition heads (P : ascii -> Prop) (t : list ascii) : Prop := match t with [] => True | c :: _ => P c end.

(** [n] words, each preceded by blanks *)
Inductive entries : nat -> list ascii -> Prop :=
| entries_none : entries 0 []
| entries_more n s e t : blanks s -> word e -> heads blank t -> entries n t -> entries (S n) (s ++ e ++ t).

(** blanks, followed by decimal digits with value [v] *)
Definition decimal_digit (c : ascii) : Prop := (48 <= N_of_ascii c <= 57)%N.
Definition decimal_value (ds : list ascii) : N :=
  fold_left (fun v c => (v * 10 + (N_of_ascii c - 48))%N) ds 0%N.
Definition number_entry (v : N) (t : list ascii) : Prop :=
  exists s ds, t = s ++ ds /\ blanks s /\ ds <> [] /\ Forall decimal_digit ds /\ decimal_value ds = v.

(** *** Numbers as text.  [double] recognises a number at the start of a text, [show] writes a
    number.  What is assumed about them (for numbers with [D]): a number is written with
    characters of numbers and is read back; reading looks at no character beyond the number. *)
Definition number_char (c : ascii) : Prop :=
  decimal_digit c \/ (65 <= N_of_ascii c <= 90)%N \/ (97 <= N_of_ascii c <= 122)%N \/
  c = "+"%char \/ c = "-"%char \/ c = "."%char.
Record number_text (N : Type) (D : N -> Prop) (double : list ascii -> option (N * list ascii))
    (show : N -> list ascii) : Prop := {
  nt_show : forall w, D w -> show w <> [] /\ Forall number_char (show w);
  nt_round : forall w, D w -> double (show w) = Some (w, []);
  nt_local : forall t rest, heads (fun c => ~ number_char c) rest ->
    double (t ++ rest) = match double t with Some (w, r) => Some (w, r ++ rest) | None => None end;
  nt_consumes : forall t w r, double t = Some (w, r) ->
    exists p, t = p ++ r /\ p <> [] /\ Forall number_char p
}.
