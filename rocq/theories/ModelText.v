(** Texts, the parser combinators of nom used in src/parsing.rs, and reading from a
    [BufRead].  A text is a list of bytes.  All characters the code looks for are ASCII, so
    working on bytes is the same as working on the characters of valid UTF-8.  Simplification:
    reading never fails ([std::io::Error] is not modelled), and files are modelled by their
    content after decompression. *)
From Coq Require Export Ascii String ZArith NArith.
From Verif Require Import Base.
Open Scope list_scope.
Open Scope nat_scope.
Notation length := List.length.
Notation concat := List.concat.

Definition text := list ascii.
Definition lit (s : string) : text := list_ascii_of_string s.

Definition NL : ascii := "010"%char.
Definition TAB : ascii := "009"%char.
Definition VT : ascii := "011"%char.
Definition FF : ascii := "012"%char.
Definition CR : ascii := "013"%char.
Definition SP : ascii := " "%char.
Definition QUOTE : ascii := "034"%char.

Definition ceq (a b : ascii) : bool := Ascii.eqb a b.

(** nom [space0], [space1]: blanks and tabs *)
Definition is_space (c : ascii) : bool := ceq c SP || ceq c TAB.
(** [char::is_ascii_whitespace] *)
Definition is_ws (c : ascii) : bool := ceq c SP || ceq c TAB || ceq c NL || ceq c FF || ceq c CR.
(** [char::is_whitespace]; simplification: of the ASCII characters *)
Definition is_white (c : ascii) : bool := is_ws c || ceq c VT.

(** How a function of the code ends.  The texts quoted in error messages are left out. *)
Inductive read_error :=
| ParseEntry (what : string) | InvalidEntry (what : string) | UnrecognisedEntry (what : string)
| FindEntry (what : string) | FindWeight (name : text)
| IncompleteTag (what : string) | UnclosedTag (what : string).
Inductive res (A : Type) := Ok (a : A) | Err (e : read_error) | Panic.
Arguments Ok {A}. Arguments Err {A}. Arguments Panic {A}.
Definition bind {A B} (r : res A) (f : A -> res B) : res B :=
  match r with Ok a => f a | Err e => Err e | Panic => Panic end.
(** [.map_err(..)?] on the result of a parser *)
Definition or_err {A} (o : option A) (e : read_error) : res A :=
  match o with Some a => Ok a | None => Err e end.

(** *** Slices *)
Fixpoint span (p : ascii -> bool) (t : text) : text * text :=
  match t with
  | [] => ([], [])
  | c :: t' => if p c then let '(a, b) := span p t' in (c :: a, b) else ([], t)
  end.

Fixpoint strip_prefix (p t : text) : option text :=
  match p, t with
  | [], _ => Some t
  | a :: p', b :: t' => if ceq a b then strip_prefix p' t' else None
  | _ :: _, [] => None
  end.

(** [str::find]: position of the first occurrence *)
Fixpoint find (sub t : text) : option nat :=
  match strip_prefix sub t with
  | Some _ => Some 0
  | None =>
      match t with
      | [] => None
      | _ :: t' => match find sub t' with Some n => Some (S n) | None => None end
      end
  end.

(** [str::ends_with] *)
Definition ends_with (t m : text) : bool :=
  match strip_prefix (rev m) (rev t) with Some _ => true | None => false end.

(** [String::replace_range(start..end, by)] *)
Definition replace_range (t : text) (start stop : nat) (by_ : text) : res text :=
  if (stop <? start) || (length t <? stop) then Panic
  else Ok (firstn start t ++ by_ ++ skipn stop t).

(** [str::split_ascii_whitespace] *)
Fixpoint words_from (cur : text) (t : text) : list text :=
  match t with
  | [] => match cur with [] => [] | _ => [rev cur] end
  | c :: t' =>
      if is_ws c then match cur with [] => words_from [] t' | _ => rev cur :: words_from [] t' end
      else words_from (c :: cur) t'
  end.
Definition words (t : text) : list text := words_from [] t.

(** [slice::join(" ")] *)
Fixpoint join (sep : text) (l : list text) : text :=
  match l with
  | [] => []
  | [a] => a
  | a :: l' => a ++ sep ++ join sep l'
  end.

(** [str::trim_start] *)
Definition trim_start (t : text) : text := snd (span is_white t).

(** *** Parsers: the result and the rest of the text *)
Definition parser (A : Type) := text -> option (A * text).

Definition space0 (t : text) : text := snd (span is_space t).
Definition space1 (t : text) : option text :=
  match span is_space t with ([], _) => None | (_, r) => Some r end.
Definition preceded1 {A} (p : parser A) : parser A :=
  fun t => match space1 t with Some r => p r | None => None end.
Definition preceded0 {A} (p : parser A) : parser A := fun t => p (space0 t).

(** src/parsing.rs:25-27 [non_space] *)
Definition non_space : parser text :=
  fun t => match span (fun c => negb (is_ws c)) t with ([], _) => None | (a, r) => Some (a, r) end.

(** src/parsing.rs:13-15 [any_entry] *)
Definition any_entry : parser text := preceded1 non_space.

Definition digit (c : ascii) : option N :=
  let n := N_of_ascii c in
  if (48 <=? n)%N && (n <=? 57)%N then Some (n - 48)%N else None.

(** nom [character::complete::u32]: at least one digit; an error on overflow *)
Fixpoint digits_from (value : N) (t : text) : option (N * text) :=
  match t with
  | [] => Some (value, [])
  | c :: t' =>
      match digit c with
      | None => Some (value, t)
      | Some d => let v := (value * 10 + d)%N in
                  if (v <? 2 ^ 32)%N then digits_from v t' else None
      end
  end.
Definition u32 : parser N :=
  fun t => match t with
           | c :: _ => match digit c with Some _ => digits_from 0 t | None => None end
           | [] => None
           end.

(** nom [character::complete::i32]: an optional sign, then digits *)
Fixpoint signed_from (positive : bool) (value : Z) (t : text) : option (Z * text) :=
  match t with
  | [] => Some (value, [])
  | c :: t' =>
      match digit c with
      | None => Some (value, t)
      | Some d =>
          let v := (if positive then value * 10 + Z.of_N d else value * 10 - Z.of_N d)%Z in
          if ((- 2 ^ 31 <=? v)%Z && (v <? 2 ^ 31)%Z) then signed_from positive v t' else None
      end
  end.
Definition i32 : parser Z :=
  fun t =>
    let '(positive, r) := match t with
                          | c :: t' => if ceq c "+" then (true, t') else if ceq c "-" then (false, t') else (true, t)
                          | [] => (true, t)
                          end in
    match r with
    | c :: _ => match digit c with Some _ => signed_from positive 0 r | None => None end
    | [] => None
    end.

(** src/parsing.rs:17-23 *)
Definition u32_entry : parser N := preceded1 u32.
Definition i32_entry : parser Z := preceded1 i32.

(** nom [multi::count(any_entry, n)]; only the rest is used *)
Fixpoint count_any (n : nat) (t : text) : option text :=
  match n with
  | 0 => Some t
  | S n => match any_entry t with Some (_, r) => count_any n r | None => None end
  end.

(** nom [multi::count] *)
Fixpoint count {A} (p : parser A) (n : nat) (t : text) : option (list A * text) :=
  match n with
  | 0 => Some ([], t)
  | S n => match p t with
           | None => None
           | Some (a, r) => match count p n r with Some (l, r') => Some (a :: l, r') | None => None end
           end
  end.

(** nom [bytes::complete::take_until], [char] and [delimited] for a quoted string *)
Definition quoted : parser text :=
  fun t => match t with
           | c :: t' => if ceq c QUOTE then
                          match find [QUOTE] t' with
                          | Some n => Some (firstn n t', skipn (S n) t')
                          | None => None
                          end
                        else None
           | [] => None
           end.

(** *** [BufRead::read_until]: the bytes up to and including the next [c] (or up to the end), and
    what remains; nothing is read at the end of the file. *)
Fixpoint read_until (c : ascii) (src : text) : text * text :=
  match src with
  | [] => ([], [])
  | a :: src' => if ceq a c then ([a], src') else let '(x, r) := read_until c src' in (a :: x, r)
  end.

(** The loops of the readers: [read_until c] until the bytes read end with [marker], or until
    the end of the file.  [fuel]: one more than the number of bytes left suffices. *)
Inductive scanned := Found (record rest : text) | AtEnd (record : text).
Fixpoint scan (fuel : nat) (c : ascii) (marker record src : text) : scanned :=
  match fuel with
  | 0 => AtEnd record
  | S fuel =>
      match read_until c src with
      | ([], _) => AtEnd record
      | (x, rest) =>
          if ends_with (record ++ x) marker then Found (record ++ x) rest
          else scan fuel c marker (record ++ x) rest
      end
  end.

(** [String::from_utf8] succeeds exactly on valid UTF-8 (Unicode, table 3-7).  The state is the
    number of continuation bytes still to come and the range allowed for the next one. *)
Definition utf8_state := option (nat * N * N).
Definition utf8_step (s : utf8_state) (c : ascii) : option utf8_state :=
  let b := N_of_ascii c in
  let within lo hi := (lo <=? b)%N && (b <=? hi)%N in
  match s with
  | None =>
      if within 0%N 127%N then Some None
      else if within 194%N 223%N then Some (Some (1, 128%N, 191%N))
      else if within 224%N 224%N then Some (Some (2, 160%N, 191%N))
      else if within 225%N 236%N then Some (Some (2, 128%N, 191%N))
      else if within 237%N 237%N then Some (Some (2, 128%N, 159%N))
      else if within 238%N 239%N then Some (Some (2, 128%N, 191%N))
      else if within 240%N 240%N then Some (Some (3, 144%N, 191%N))
      else if within 241%N 243%N then Some (Some (3, 128%N, 191%N))
      else if within 244%N 244%N then Some (Some (3, 128%N, 143%N))
      else None
  | Some (n, lo, hi) =>
      if within lo hi then
        match n with
        | S (S n) => Some (Some (S n, 128%N, 191%N))
        | _ => Some None
        end
      else None
  end.
Fixpoint utf8_from (s : utf8_state) (t : text) : bool :=
  match t with
  | [] => match s with None => true | Some _ => false end
  | c :: t' => match utf8_step s c with Some s' => utf8_from s' t' | None => false end
  end.
Definition utf8 (t : text) : bool := utf8_from None t.

(** [str::lines]: the lines, without the line break and without a carriage return before it *)
Definition strip_cr (l : text) : text := match rev l with c :: r => if ceq c CR then rev r else l | [] => l end.
Fixpoint lines_from (cur : text) (t : text) : list text :=
  match t with
  | [] => match cur with [] => [] | _ => [rev cur] end
  | c :: t' => if ceq c NL then strip_cr (rev cur) :: lines_from [] t' else lines_from (c :: cur) t'
  end.
Definition lines (t : text) : list text := lines_from [] t.
