(** Model of the recognition of STRIPPER XML files: src/stripper_xml.rs:337-440
    [extract_xml_info], [parse_u64] and src/stripper_xml.rs:476-481 [to_string].

    The crate quick-xml (version 0.37) is modelled from its documentation: a reader that delivers
    texts, declarations and tags, and the iterator over the attributes of a tag.  Simplified:
    the reader is modelled up to the first tag only, with [None] for every event and every error
    that makes [extract_xml_info] give up.  The deserialisation of the contents of the tag
    [Normalization] (crate stripper-xml) is a parameter. *)
From Verif Require Import Base Num ModelEvent ModelText ModelStripper ModelIO ModelMain.

Definition same_text (a b : text) : bool := if list_eq_dec ascii_dec a b then true else false.

(** quick-xml [is_whitespace] *)
Definition xml_ws (c : ascii) : bool := ceq c SP || ceq c TAB || ceq c NL || ceq c CR.
Definition skip_ws (t : text) : text := snd (span xml_ws t).
Definition is_quote (c : ascii) : bool := ceq c QUOTE || ceq c "'".

(** quick-xml [ElementParser]: the tag ends with the first ">" that is not between quotes *)
Fixpoint element (quote : option ascii) (t : text) : option (text * text) :=
  match t with
  | [] => None
  | c :: r =>
      match quote with
      | Some q => option_map (fun '(a, b) => (c :: a, b)) (element (if ceq c q then None else quote) r)
      | None => if ceq c ">" then Some ([], r)
                else option_map (fun '(a, b) => (c :: a, b)) (element (if is_quote c then Some c else None) r)
      end
  end.

(** quick-xml: what is between "<?" and "?>" is a declaration or a processing instruction *)
Definition is_decl (content : text) : bool :=
  match strip_prefix (lit "xml") content with
  | Some [] => true
  | Some (c :: _) => xml_ws c
  | None => false
  end.

(** src/stripper_xml.rs:343-345 and 432-433: the first tag that is neither a text nor a
    declaration, together with what follows.  [None]: end of the file, a comment, a processing
    instruction, an empty tag, a tag that is not closed, ... *)
Fixpoint first_tag (fuel : nat) (t : text) : option (text * text) :=
  match fuel with
  | 0 => None
  | S fuel =>
      match snd (span (fun c => negb (ceq c "<")) t) with
      | _ :: c :: r =>
          if ceq c "?" then
            match find (lit "?>") r with
            | Some n => if is_decl (firstn n r) then first_tag fuel (skipn (n + 2) r) else None
            | None => None
            end
          else if ceq c "!" || ceq c "/" then None
          else match element None (c :: r) with
               | Some (content, rest) => if ends_with content (lit "/") then None else Some (content, rest)
               | None => None
               end
      | _ => None
      end
  end.

(** quick-xml [BytesStart::name]: up to the first white space *)
Definition tag_name (content : text) : text := fst (span (fun c => negb (xml_ws c)) content).

(** quick-xml [Attributes] with errors filtered out (src/stripper_xml.rs:371-375): "key", "=",
    and a value between quotes.  Keys without values, values without quotes, and keys that were
    used before are errors; the iterator continues behind them. *)
Fixpoint attributes (fuel : nat) (seen : list text) (t : text) : list (text * text) :=
  match fuel with
  | 0 => []
  | S fuel =>
      match skip_ws t with
      | [] => []
      | c :: r =>
          let '(k, r) := span (fun c => negb (ceq c "=" || xml_ws c)) r in
          let key := c :: k in
          match skip_ws r with
          | [] => []
          | e :: r' =>
              if ceq e "=" then
                match skip_ws r' with
                | [] => []
                | q :: v =>
                    if is_quote q then
                      match span (fun c => negb (ceq c q)) v with
                      | (value, _ :: rest) =>
                          if existsb (same_text key) seen then attributes fuel seen rest
                          else (key, value) :: attributes fuel (key :: seen) rest
                      | (_, []) => []
                      end
                    else attributes fuel (key :: seen) (snd (span (fun c => negb (xml_ws c)) v))
                end
              else attributes fuel seen (e :: r')
          end
      end
  end.

(** nom [character::complete::u64]: at least one digit; an error on overflow *)
Fixpoint digits64_from (value : N) (t : text) : option (N * text) :=
  match t with
  | [] => Some (value, [])
  | c :: t' =>
      match digit c with
      | None => Some (value, t)
      | Some d => let v := (value * 10 + d)%N in
                  if (v <? 2 ^ 64)%N then digits64_from v t' else None
      end
  end.
(** src/stripper_xml.rs:438-440 [parse_u64] *)
Definition parse_u64 (t : text) : option N :=
  match t with
  | c :: _ =>
      match digit c with
      | Some _ => match digits64_from 0 t with Some (v, []) => Some v | _ => None end
      | None => None
      end
  | [] => None
  end.

(** src/stripper_xml.rs:483-514 [Error], restricted to the errors of this function, and
    [Utf8Error].  Simplified: invalid UTF-8 in a value is not replaced. *)
Inductive xml_error :=
| NoTag
| BadTag (name : text)
| NoEventrecordAttr (attr : text)
| AttrType (attr val : text)
| NormalizationDeser
| NotUtf8.

(** src/stripper_xml.rs:366-369 *)
Record tag_info := mkInfo { i_name : option text; i_nevents : option N; i_nsubevents : option N; i_as : option N }.
Definition no_info : tag_info := mkInfo None None None None.

(** src/stripper_xml.rs:376-409 *)
Definition add_attribute (i : tag_info) (a : text * text) : xml_error + tag_info :=
  let '(key, val) := a in
  let number := match parse_u64 val with Some v => inr v | None => inl (AttrType key val) end in
  if same_text key (lit "nevents") then
    match number with inr v => inr (mkInfo (i_name i) (Some v) (i_nsubevents i) (i_as i)) | inl e => inl e end
  else if same_text key (lit "nsubevents") then
    match number with inr v => inr (mkInfo (i_name i) (i_nevents i) (Some v) (i_as i)) | inl e => inl e end
  else if same_text key (lit "name") then
    if utf8 val then inr (mkInfo (Some val) (i_nevents i) (i_nsubevents i) (i_as i)) else inl NotUtf8
  else if same_text key (lit "as") then
    match number with inr v => inr (mkInfo (i_name i) (i_nevents i) (i_nsubevents i) (Some v)) | inl e => inl e end
  else inr i.
Fixpoint add_attributes (i : tag_info) (l : list (text * text)) : xml_error + tag_info :=
  match l with
  | [] => inr i
  | a :: l => match add_attribute i a with inr i => add_attributes i l | inl e => inl e end
  end.

(** src/stripper_xml.rs:442-454 [XMLTag] *)
Inductive full_tag (N : NumOps) :=
| NormalizationTag (name : text) (scale : N)
| EventrecordTag (alpha_s_power : BinNums.N) (name : text) (nevents nsubevents : BinNums.N).
Arguments NormalizationTag {N}. Arguments EventrecordTag {N}.

Section Extract.
(** src/stripper_xml.rs:352-360: name and scale from the text that starts with the tag *)
Context {N : NumOps} (normalization : text -> option (text * N)).

(** src/stripper_xml.rs:410-428 *)
Definition event_record_tag (content : text) : xml_error + full_tag N :=
  match add_attributes no_info (attributes (S (length content)) [] (snd (span (fun c => negb (xml_ws c)) content))) with
  | inl e => inl e
  | inr i =>
      match i_name i, i_nsubevents i, i_nevents i, i_as i with
      | None, _, _, _ => inl (NoEventrecordAttr (lit "name"))
      | _, None, _, _ => inl (NoEventrecordAttr (lit "nsubevents"))
      | _, _, None, _ => inl (NoEventrecordAttr (lit "nevents"))
      | _, _, _, None => inl (NoEventrecordAttr (lit "as"))
      | Some name, Some nsubevents, Some nevents, Some alpha_s_power =>
          inr (EventrecordTag alpha_s_power name nevents nsubevents)
      end
  end.

(** src/stripper_xml.rs:337-436.  quick-xml removes a byte order mark. *)
Definition extract_xml_info (t : text) : xml_error + full_tag N :=
  let t := match strip_prefix ["239"; "187"; "191"]%char t with Some t => t | None => t end in
  match first_tag (S (length t)) t with
  | None => inl NoTag
  | Some (content, rest) =>
      if same_text (tag_name content) (lit "Normalization") then
        match normalization ("<"%char :: content ++ ">"%char :: rest) with
        | Some (name, scale) => inr (NormalizationTag name scale)
        | None => inl NormalizationDeser
        end
      else if same_text (tag_name content) (lit "Eventrecord") then event_record_tag content
      else if utf8 (tag_name content) then inl (BadTag (tag_name content)) else inl NotUtf8
  end.

(** What the rest of the program uses, see [xml_tag] in ModelMain.v *)
Definition xml_info (t : text) : option (xml_tag N) :=
  match extract_xml_info t with
  | inr (NormalizationTag name scale) => Some (XNormalization name scale)
  | inr (EventrecordTag _ name nevents nsubevents) => Some (XEventrecord name (N.to_nat nevents) nsubevents)
  | inl _ => None
  end.
End Extract.
