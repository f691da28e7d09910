(** What STRIPPER XML files look like up to the end of their first tag. *)
From Coq Require Import Ascii String NArith List.
From Verif Require Import SpecText SpecRecord.
Import ListNotations.

Local Notation text := (list ascii).

(** Characters of the names of tags and attributes: no white space, none of = > < / ! ? and no quotes *)
Definition name_char (c : ascii) : Prop :=
  ~ In c [" "; "009"; "010"; "013"; "="; ">"; "<"; "/"; "!"; "?"; """"; "'"]%char.
Definition xml_name (s : text) : Prop := s <> [] /\ Forall name_char s.

(** An attribute as it is written: white space, the key, "=" (maybe with white space around it),
    and the value in single or double quotes *)
Definition attribute_text (key value s : text) : Prop := exists w0 w1 w2 q,
  w0 <> [] /\ xml_space w0 /\ xml_space w1 /\ xml_space w2 /\ (q = """"%char \/ q = "'"%char) /\ ~ In q value /\
  s = w0 ++ key ++ w1 ++ ["="%char] ++ w2 ++ [q] ++ value ++ [q].

(** A tag with these attributes, with different keys *)
Definition tag_text (name : text) (attrs : list (text * text)) (s : text) : Prop := exists parts w,
  xml_name name /\ Forall (fun a => xml_name (fst a)) attrs /\ NoDup (map fst attrs) /\
  Forall2 (fun a part => attribute_text (fst a) (snd a) part) attrs parts /\ xml_space w /\
  s = ["<"%char] ++ name ++ concat parts ++ w ++ [">"%char].

(** What precedes the first tag: text and declarations <?xml ... ?> *)
Inductive prolog : text -> Prop :=
| prolog_text s : ~ In "<"%char s -> prolog s
| prolog_decl s body p : ~ In "<"%char s -> heads (fun c => xml_space [c]) body ->
    ~ occurs (list_ascii_of_string "?>") body -> prolog p ->
    prolog (s ++ list_ascii_of_string "<?xml" ++ body ++ list_ascii_of_string "?>" ++ p).

(** A file: maybe a byte order mark, a prolog, the first tag, and anything else *)
Definition xml_file (name : text) (attrs : list (text * text)) (rest t : text) : Prop := exists mark p tag,
  (mark = [] \/ mark = ["239"; "187"; "191"]%char) /\ prolog p /\ tag_text name attrs tag /\ t = mark ++ p ++ tag ++ rest.

(** Unsigned 64 bit numbers *)
Definition u64_text (v : N) (s : text) : Prop := s <> [] /\ Forall decimal_digit s /\ decimal_value s = v /\ (v < 2 ^ 64)%N.

(** The value of an attribute of a tag *)
Definition has_value (attrs : list (text * text)) (key : string) (value : text) : Prop :=
  In (list_ascii_of_string key, value) attrs.
Definition has_number (attrs : list (text * text)) (key : string) (v : N) : Prop :=
  exists s, has_value attrs key s /\ u64_text v s.
