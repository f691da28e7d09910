(** Property C85: which STRIPPER XML files are recognised, and what is read from them. *)
From Verif Require Import Base BaseProofs Num ModelEvent ModelText SpecText TextProofs ModelHepMC ModelLHEF ModelStripper ModelIO FormatProofs FileProofs2 FileProofs3 SpecRecord SpecFormats
  PropsHepMC PropsFormats PropsRecord ModelCres SpecCres ModelMain SpecMain
  TextExamples PropsMain ModelXml SpecXml XmlProofs XmlProofs2.
From Coq Require Import Lia.

(** A file with the tag Eventrecord is accepted if and only if the tag has a name and the three
    numbers, written with decimal digits and less than 2^64.  What is read are these values.  The
    order of the attributes, further attributes, white space, the kind of quotes, declarations,
    and everything after the tag have no influence. *)
Theorem C85_record : forall (N : NumOps) (norm : text -> option (text * N)) attrs rest t,
  xml_file (lit "Eventrecord") attrs rest t -> forall alpha_s_power name nevents nsubevents,
  extract_xml_info norm t = inr (EventrecordTag alpha_s_power name nevents nsubevents) <->
  has_value attrs "name" name /\ utf8 name = true /\ has_number attrs "nevents" nevents /\
  has_number attrs "nsubevents" nsubevents /\ has_number attrs "as" alpha_s_power.
Proof. intros N norm attrs rest t H. exact (record_accepts norm attrs rest t H). Qed.
Print Assumptions C85_record.

(** If it is not accepted, then the error names an attribute that is missing or has a value that
    is not a number, or there is a name that is not valid UTF-8. *)
Theorem C85_errors : forall (N : NumOps) (norm : text -> option (text * N)) attrs rest t e,
  xml_file (lit "Eventrecord") attrs rest t -> extract_xml_info norm t = inl e ->
  (exists key, e = NoEventrecordAttr (lit key) /\ In key ["name"; "nevents"; "nsubevents"; "as"]%string /\
     forall value, ~ has_value attrs key value) \/
  (exists key value, e = AttrType (lit key) value /\ In key ["nevents"; "nsubevents"; "as"]%string /\
     has_value attrs key value /\ ~ exists v, u64_text v value) \/
  (e = NotUtf8 /\ exists value, has_value attrs "name" value /\ utf8 value = false).
Proof.
  intros N norm attrs rest t e H E. pose proof (record_errors norm attrs rest t H) as P. rewrite E in P.
  destruct e; try contradiction.
  - destruct P as [Hk Hn]. left.
    assert (Hno : forall value, ~ In (attr, value) attrs) by (intros value Hin; apply Hn; apply (in_map fst) in Hin; exact Hin).
    destruct Hk as [<-|[<-|[<-|[<-|[]]]]].
    + exists "name"%string. split; [reflexivity|]. split; [cbn; auto|exact Hno].
    + exists "nsubevents"%string. split; [reflexivity|]. split; [cbn; auto|exact Hno].
    + exists "nevents"%string. split; [reflexivity|]. split; [cbn; auto|exact Hno].
    + exists "as"%string. split; [reflexivity|]. split; [cbn; auto|exact Hno].
  - destruct P as (Hk & Hin & Hu). right; left. destruct Hk as [<-|[<-|[<-|[]]]].
    + exists "nevents"%string, val. split; [reflexivity|]. split; [cbn; auto|]. split; [exact Hin|exact Hu].
    + exists "nsubevents"%string, val. split; [reflexivity|]. split; [cbn; auto|]. split; [exact Hin|exact Hu].
    + exists "as"%string, val. split; [reflexivity|]. split; [cbn; auto|]. split; [exact Hin|exact Hu].
  - right; right. split; [reflexivity|]. exact P.
Qed.
Print Assumptions C85_errors.

(** A file with the tag Normalization is passed to the deserialisation from this tag on. *)
Theorem C85_normalization : forall (N : NumOps) (norm : text -> option (text * N)) attrs rest t,
  xml_file (lit "Normalization") attrs rest t -> exists before tag,
  tag_text (lit "Normalization") attrs tag /\ t = before ++ tag ++ rest /\
  extract_xml_info norm t =
    match norm (tag ++ rest) with Some (name, scale) => inr (NormalizationTag name scale) | None => inl NormalizationDeser end.
Proof.
  intros N norm attrs rest t (mark & p & tag & Hm & Hp & (parts & w & Hn & Hk & Hd & F & Hw & ->) & ->).
  exists (mark ++ p), (["<"%char] ++ lit "Normalization" ++ concat parts ++ w ++ [">"%char]).
  split; [exists parts, w; auto 10|]. split; [rewrite <- (app_assoc mark p); reflexivity|].
  set (t := mark ++ p ++ (["<"%char] ++ lit "Normalization" ++ concat parts ++ w ++ [">"%char]) ++ rest).
  assert (E : first_tag (S (length (without_mark t))) (without_mark t) = Some (content_of (lit "Normalization") parts w, rest)).
  { apply (file_tag_at mark p (lit "Normalization") attrs parts w rest); assumption. }
  unfold extract_xml_info. fold (without_mark t). rewrite E. unfold tag_name.
  pose proof (name_span (lit "Normalization") parts w attrs (proj2 Hn) F Hw) as Hs. unfold text in *. rewrite Hs. cbn [fst].
  rewrite same_text_refl. cbn iota.
  replace ("<"%char :: content_of (lit "Normalization") parts w ++ ">"%char :: rest)
    with ((["<"%char] ++ lit "Normalization" ++ concat parts ++ w ++ [">"%char]) ++ rest)
    by (unfold content_of; rewrite <- !app_assoc; reflexivity).
  reflexivity.
Qed.
Print Assumptions C85_normalization.

(** Files with any other tag are rejected, and the error tells which tag was found. *)
Theorem C85_other_tag : forall (N : NumOps) (norm : text -> option (text * N)) name attrs rest t,
  xml_file name attrs rest t -> name <> lit "Eventrecord" -> name <> lit "Normalization" ->
  extract_xml_info norm t = if utf8 name then inl (BadTag name) else inl NotUtf8.
Proof.
  intros N norm name attrs rest t H H1 H2. destruct (file_content norm _ _ _ _ H) as (parts & w & E & _).
  rewrite (same_text_false _ _ H1), (same_text_false _ _ H2) in E. exact E.
Qed.
Print Assumptions C85_other_tag.

(** Files whose first tag is an empty tag <.../>, a comment or similar (<!...), or an end tag
    (</...) are rejected, and so are files without any tag. *)
Theorem C85_no_tag : forall (N : NumOps) (norm : text -> option (text * N)) mark p rest,
  mark = [] \/ mark = ["239"; "187"; "191"]%char -> prolog p ->
  (forall name attrs s, tag_text name attrs (s ++ lit ">") -> extract_xml_info norm (mark ++ p ++ s ++ lit "/>" ++ rest) = inl NoTag) /\
  extract_xml_info norm (mark ++ p ++ lit "<!" ++ rest) = inl NoTag /\
  extract_xml_info norm (mark ++ p ++ lit "</" ++ rest) = inl NoTag /\
  (~ In "<"%char rest -> extract_xml_info norm rest = inl NoTag).
Proof.
  intros N norm mark p rest Hm Hp. split; [|split; [|split]].
  - intros name attrs s (parts & w & Hn & Hk & Hd & F & Hw & E).
    assert (Es : s = "<"%char :: name ++ concat parts ++ w).
    { replace (["<"%char] ++ name ++ concat parts ++ w ++ [">"%char]) with (("<"%char :: name ++ concat parts ++ w) ++ [">"%char]) in E
        by (cbn [app]; rewrite <- !app_assoc; reflexivity).
      apply app_inj_tail in E as [E _]. exact E. }
    subst s. pose proof (empty_tag name attrs parts w rest Hn Hk F Hw) as He.
    replace (("<"%char :: name ++ concat parts ++ w) ++ lit "/>" ++ rest)
      with ("<"%char :: (name ++ concat parts ++ w ++ ["/"%char]) ++ ">"%char :: rest) by (cbn; rewrite <- !app_assoc; reflexivity).
    destruct Hn as [Hne _]. destruct name as [|c name]; [congruence|]. apply no_first_tag; assumption.
  - apply (no_first_tag norm mark p "!"%char rest Hm Hp). intros [|fuel]; reflexivity.
  - apply (no_first_tag norm mark p "/"%char rest Hm Hp). intros [|fuel]; reflexivity.
  - intros H. unfold extract_xml_info. fold (without_mark rest).
    enough (E : forall fuel, first_tag fuel (without_mark rest) = None) by (rewrite E; reflexivity).
    intros fuel. rewrite without_mark_first. rewrite <- (app_nil_r rest), first_tag_text by exact H. destruct fuel; reflexivity.
Qed.
Print Assumptions C85_no_tag.

(** The values that are passed on to the rest of the program. *)
Theorem C85_seen : forall (N : NumOps) (norm : text -> option (text * N)) attrs rest t name nevents nsubevents,
  xml_file (lit "Eventrecord") attrs rest t ->
  xml_info norm t = Some (XEventrecord name nevents nsubevents) <->
  has_value attrs "name" name /\ utf8 name = true /\ has_number attrs "nevents" (N.of_nat nevents) /\
  has_number attrs "nsubevents" nsubevents /\ exists power, has_number attrs "as" power.
Proof.
  intros N norm attrs rest t name nevents nsubevents H. pose proof (C85_record N norm attrs rest t H) as R. unfold xml_info. split.
  - destruct (extract_xml_info norm t) as [e|[n s|a n v u]] eqn:E; try discriminate. intros Hx. injection Hx as <- <- <-.
    rewrite N2Nat.id. destruct (proj1 (R a n v u) eq_refl) as (H1 & H2 & H3 & H4 & H5). eauto 10.
  - intros (H1 & H2 & H3 & H4 & a & H5). rewrite (proj2 (R a name (N.of_nat nevents) nsubevents)) by auto.
    rewrite Nat2N.id. reflexivity.
Qed.
Print Assumptions C85_seen.

(** Whatever the file looks like: once the tag Eventrecord was read, nothing that follows matters.
    This is what the theorems about the whole program assume about the XML parser. *)
Theorem C85_stops : forall (N : NumOps) (norm : text -> option (text * N)), stops_at_tag (xml_info norm).
Proof. intros N norm. exact (xml_stops norm). Qed.
Print Assumptions C85_stops.

(** The program with this parser, see C63_round_trip. *)
Theorem C85_program : forall (N : NumOps) (D : N -> Prop) double show norm checks mw names sort cluster shuffle resample unweighter
    fuel inputs files tags outs,
  number_text N D double show -> mw = false \/ names = [] -> reorders shuffle -> sort_ok sort ->
  event_files (xml_info norm) inputs = Ok (files, tags) ->
  Forall (well_formed D double (xml_info norm) checks (extract_scaling tags)) files ->
  cres_program double show (xml_info norm) checks mw names sort cluster shuffle resample unweighter fuel inputs = Done outs ->
  length outs = length files /\
  exists evs W, length W = length evs /\ reads double show (xml_info norm) checks mw names sort inputs evs /\
    (Forall (writable D (extract_scaling tags)) W ->
     reads double show (xml_info norm) checks mw names sort (replace_events (xml_info norm) inputs outs) (reweighted_all evs W)).
Proof.
  intros N D double show norm checks mw names sort cluster shuffle resample unweighter fuel inputs files tags outs HT Hm Hs Hsort He Hwf Hp.
  destruct (C63_round_trip N D double show (xml_info norm) checks mw names sort cluster shuffle resample unweighter fuel inputs files tags outs
    HT Hm (C85_stops N norm) Hs Hsort He Hwf Hp) as (Hl & records & evs & W & _ & _ & _ & Hw & Hr & Hr').
  split; [exact Hl|]. exists evs, W. auto.
Qed.
Print Assumptions C85_program.

(** *** Examples *)
Definition x_norm (t : text) : option (text * ZN) :=
  if starts_with (lit "<Normalization") t then Some (lit "RR", 4%Z) else None.
Definition x_attrs : list (text * text) :=
  [(lit "as", lit "3"); (lit "author", lit "a > b"); (lit "nsubevents", lit "18446744073709551615"); (lit "name", lit "RR ""1"""); (lit "nevents", lit "007")].
Definition x_rest : text := Eval vm_compute in ln "" ++ ln "<e> </e> ' < ""</Eventrecord>".
Definition x_file : text := Eval vm_compute in
  ["239"; "187"; "191"]%char ++ ln "<?xml version=""1.0"" x='?'?> " ++
  lit "<Eventrecord as=""3"" author='a > b'" ++ [NL] ++ lit " nsubevents =  ""18446744073709551615"" name='RR ""1""' nevents=""007"" >" ++ x_rest.

Lemma x_name (s : text) : forallb (fun c => negb (existsb (ceq c) [" "; "009"; "010"; "013"; "="; ">"; "<"; "/"; "!"; "?"; """"; "'"]%char)) s = true ->
  s <> [] -> xml_name s.
Proof.
  intros H Hne. split; [exact Hne|]. apply Forall_forall. intros c Hc. rewrite forallb_forall in H. apply H in Hc.
  intros Hin. apply negb_true_iff in Hc. assert (E : existsb (ceq c) [" "; "009"; "010"; "013"; "="; ">"; "<"; "/"; "!"; "?"; """"; "'"]%char = true).
  { apply existsb_exists. exists c. split; [exact Hin|apply ceq_refl]. }
  unfold text in *. congruence.
Qed.
Lemma x_space (s : text) : forallb xml_ws s = true -> xml_space s.
Proof. intros H. apply Forall_forall. intros c Hc. rewrite forallb_forall in H. apply xml_ws_true. apply H. exact Hc. Qed.
Lemma x_attr w0 k w1 w2 q v : w0 <> [] -> forallb xml_ws w0 = true -> forallb xml_ws w1 = true -> forallb xml_ws w2 = true ->
  is_quote q = true -> existsb (ceq q) v = false -> attribute_text k v (w0 ++ k ++ w1 ++ ["="%char] ++ w2 ++ [q] ++ v ++ [q]).
Proof.
  intros H H0 H1 H2 Hq Hv. exists w0, w1, w2, q. split; [exact H|]. split; [apply x_space; exact H0|]. split; [apply x_space; exact H1|].
  split; [apply x_space; exact H2|]. split; [apply quote_cases; exact Hq|]. split; [|reflexivity].
  intros Hin. assert (E : existsb (ceq q) v = true) by (apply existsb_exists; exists q; split; [exact Hin|apply ceq_refl]). congruence.
Qed.
Lemma x_decl s body : existsb (ceq "<"%char) s = false -> match body with c :: _ => xml_ws c | [] => true end = true ->
  match find (lit "?>") body with None => true | Some _ => false end = true -> forall p, prolog p ->
  prolog (s ++ lit "<?xml" ++ body ++ lit "?>" ++ p).
Proof.
  intros Hs Hb Hf p Hp. apply prolog_decl; [| | |exact Hp].
  - intros Hin. assert (E : existsb (ceq "<"%char) s = true) by (apply existsb_exists; exists "<"%char; split; [exact Hin|apply ceq_refl]). congruence.
  - destruct body as [|c b]; [exact I|]. cbn. apply Forall_cons; [|apply Forall_nil]. apply xml_ws_true. exact Hb.
  - destruct (find (lit "?>") body) eqn:E; [discriminate|]. apply find_none. exact E.
Qed.
Lemma x_keys (l : list text) : (fix nodup l := match l with [] => true | a :: l => negb (existsb (same_text a) l) && nodup l end) l = true -> NoDup l.
Proof.
  induction l as [|a l IH]; intros H; [constructor|]. apply andb_true_iff in H as [H1 H2]. constructor; [|apply IH; exact H2].
  intros Hin. apply negb_true_iff in H1. assert (E : existsb (same_text a) l = true) by (apply existsb_exists; exists a; split; [exact Hin|apply same_text_refl]).
  unfold text in *. congruence.
Qed.

Example C85_case : xml_file (lit "Eventrecord") x_attrs x_rest x_file /\
  has_value x_attrs "name" (lit "RR ""1""") /\ utf8 (lit "RR ""1""") = true /\ has_number x_attrs "nevents" 7 /\
  has_number x_attrs "nsubevents" 18446744073709551615 /\ has_number x_attrs "as" 3 /\
  extract_xml_info x_norm x_file = inr (EventrecordTag 3 (lit "RR ""1""") 7 18446744073709551615).
Proof.
  assert (H : xml_file (lit "Eventrecord") x_attrs x_rest x_file).
  { exists ["239"; "187"; "191"]%char, ([] ++ lit "<?xml" ++ lit " version=""1.0"" x='?'" ++ lit "?>" ++ (SP :: [NL])),
      (["<"%char] ++ lit "Eventrecord" ++ concat [
        [SP] ++ lit "as" ++ [] ++ ["="%char] ++ [] ++ [QUOTE] ++ lit "3" ++ [QUOTE];
        [SP] ++ lit "author" ++ [] ++ ["="%char] ++ [] ++ ["'"%char] ++ lit "a > b" ++ ["'"%char];
        [NL; SP] ++ lit "nsubevents" ++ [SP] ++ ["="%char] ++ [SP; SP] ++ [QUOTE] ++ lit "18446744073709551615" ++ [QUOTE];
        [SP] ++ lit "name" ++ [] ++ ["="%char] ++ [] ++ ["'"%char] ++ lit "RR ""1""" ++ ["'"%char];
        [SP] ++ lit "nevents" ++ [] ++ ["="%char] ++ [] ++ [QUOTE] ++ lit "007" ++ [QUOTE]] ++ [SP] ++ [">"%char]).
    split; [right; reflexivity|]. split; [apply x_decl; try reflexivity; apply prolog_text; intros [E|[E|[]]]; discriminate|].
    split; [|reflexivity]. eexists _, [SP]. split; [apply x_name; [reflexivity|discriminate]|]. split.
    { repeat (apply Forall_cons; [apply x_name; [reflexivity|discriminate]|]). apply Forall_nil. }
    split; [apply x_keys; reflexivity|]. split; [|split; [apply x_space; reflexivity|reflexivity]].
    repeat (apply Forall2_cons; [apply x_attr; try reflexivity; discriminate|]). apply Forall2_nil. }
  split; [exact H|].
  assert (H' : has_value x_attrs "name" (lit "RR ""1""") /\ utf8 (lit "RR ""1""") = true /\ has_number x_attrs "nevents" 7 /\
    has_number x_attrs "nsubevents" 18446744073709551615 /\ has_number x_attrs "as" 3).
  { split; [right; right; right; left; reflexivity|]. split; [reflexivity|]. split; [|split].
    - exists (lit "007"). split; [right; right; right; right; left; reflexivity|]. apply parse_u64_spec. reflexivity.
    - exists (lit "18446744073709551615"). split; [right; right; left; reflexivity|]. apply parse_u64_spec. reflexivity.
    - exists (lit "3"). split; [left; reflexivity|]. apply parse_u64_spec. reflexivity. }
  destruct H' as (H1 & H2 & H3 & H4 & H5). repeat (split; [assumption|]).
  apply (C85_record ZN x_norm x_attrs x_rest x_file H). auto.
Qed.

Example C85_errors_case :
  extract_xml_info x_norm (lit "<Eventrecord name=""a"" nevents=""1"" nsubevents=""2""> ") = inl (NoEventrecordAttr (lit "as")) /\
  extract_xml_info x_norm (lit "<Eventrecord name=""a"" nevents=""1e6"" nsubevents=""2"" as=""0""> ") = inl (AttrType (lit "nevents") (lit "1e6")) /\
  extract_xml_info x_norm (lit "<Eventrecord name=""a"" nevents=""1"" nsubevents=""18446744073709551616"" as=""0""> ") =
    inl (AttrType (lit "nsubevents") (lit "18446744073709551616")) /\
  extract_xml_info x_norm (lit "<html> ") = inl (BadTag (lit "html")) /\
  extract_xml_info x_norm (lit "<?xml?> <Eventrecord name=""a"" nevents=""1"" nsubevents=""2"" as=""0""/> ") = inl NoTag /\
  extract_xml_info x_norm (lit "<?xml?> <!DOCTYPE Eventrecord>") = inl NoTag /\
  extract_xml_info x_norm m_norm = inr (NormalizationTag (lit "RR") (4%Z : ZN)).
Proof. repeat split. Qed.

(** *** What is not recognised *)
(** A comment before the first tag is allowed in XML files.  It should not make a difference. *)
Theorem C85_comments_refuted : exists decl tag comment : text,
  prolog decl /\ ~ occurs (lit "-->") comment /\ ~ occurs (lit "--") comment /\
  (exists attrs, tag_text (lit "Eventrecord") attrs tag) /\
  forall (N : NumOps) (norm : text -> option (text * N)),
  extract_xml_info norm (decl ++ tag) = inr (EventrecordTag 0 (lit "a") 1 2) /\
  extract_xml_info norm (decl ++ lit "<!--" ++ comment ++ lit "-->" ++ tag) = inl NoTag.
Proof.
  exists ([] ++ lit "<?xml" ++ lit " version=""1.0""" ++ lit "?>" ++ []), (lit "<Eventrecord name=""a"" nevents=""1"" nsubevents=""2"" as=""0"">"), (lit " run 1 ").
  split; [apply x_decl; try reflexivity; apply prolog_text; intros []|].
  split; [apply find_none; reflexivity|]. split; [apply find_none; reflexivity|]. split.
  - exists [(lit "name", lit "a"); (lit "nevents", lit "1"); (lit "nsubevents", lit "2"); (lit "as", lit "0")].
    exists [[SP] ++ lit "name" ++ [] ++ ["="%char] ++ [] ++ [QUOTE] ++ lit "a" ++ [QUOTE];
            [SP] ++ lit "nevents" ++ [] ++ ["="%char] ++ [] ++ [QUOTE] ++ lit "1" ++ [QUOTE];
            [SP] ++ lit "nsubevents" ++ [] ++ ["="%char] ++ [] ++ [QUOTE] ++ lit "2" ++ [QUOTE];
            [SP] ++ lit "as" ++ [] ++ ["="%char] ++ [] ++ [QUOTE] ++ lit "0" ++ [QUOTE]], [].
    split; [apply x_name; [reflexivity|discriminate]|]. split.
    { repeat (apply Forall_cons; [apply x_name; [reflexivity|discriminate]|]). apply Forall_nil. }
    split; [apply x_keys; reflexivity|]. split; [|split; [apply x_space; reflexivity|reflexivity]].
    repeat (apply Forall2_cons; [apply x_attr; try reflexivity; discriminate|]). apply Forall2_nil.
  - intros N norm. split; reflexivity.
Qed.
Print Assumptions C85_comments_refuted.

(** Two ways of writing the same name (with and without an entity) should be read as the same
    name, so that the normalisation is found.  They are not. *)
Inductive denotes : text -> text -> Prop :=
| denotes_nil : denotes [] []
| denotes_char c s t : c <> "&"%char -> denotes s t -> denotes (c :: s) (c :: t)
| denotes_gt s t : denotes s t -> denotes (lit "&gt;" ++ s) (">"%char :: t).
Theorem C85_entities_refuted : exists (v v' : text) (file file' : text) attrs attrs',
  denotes v (lit "e>0") /\ denotes v' (lit "e>0") /\
  xml_file (lit "Eventrecord") ((lit "name", v) :: attrs) [] file /\ xml_file (lit "Eventrecord") ((lit "name", v') :: attrs') [] file' /\
  attrs = attrs' /\
  forall (N : NumOps) (norm : text -> option (text * N)), exists n n',
  xml_info norm file = Some (XEventrecord n 1 2) /\ xml_info norm file' = Some (XEventrecord n' 1 2) /\ n <> n'.
Proof.
  exists (lit "e>0"), (lit "e&gt;0"), (lit "<Eventrecord name=""e>0"" nevents=""1"" nsubevents=""2"" as=""0"">"),
    (lit "<Eventrecord name=""e&gt;0"" nevents=""1"" nsubevents=""2"" as=""0"">"),
    [(lit "nevents", lit "1"); (lit "nsubevents", lit "2"); (lit "as", lit "0")], [(lit "nevents", lit "1"); (lit "nsubevents", lit "2"); (lit "as", lit "0")].
  split; [repeat (apply denotes_char; [discriminate|]); apply denotes_nil|].
  split; [apply denotes_char; [discriminate|]; apply denotes_gt; apply denotes_char; [discriminate|]; apply denotes_nil|].
  assert (X : forall v, existsb (ceq QUOTE) v = false -> xml_file (lit "Eventrecord") ((lit "name", v) :: [(lit "nevents", lit "1"); (lit "nsubevents", lit "2"); (lit "as", lit "0")]) []
     (lit "<Eventrecord name=""" ++ v ++ lit """ nevents=""1"" nsubevents=""2"" as=""0"">")).
  { intros v Hv. eexists [], [], _. split; [left; reflexivity|]. split; [apply prolog_text; intros []|].
    split; [|cbn [app]; symmetry; apply app_nil_r].
    exists [[SP] ++ lit "name" ++ [] ++ ["="%char] ++ [] ++ [QUOTE] ++ v ++ [QUOTE];
            [SP] ++ lit "nevents" ++ [] ++ ["="%char] ++ [] ++ [QUOTE] ++ lit "1" ++ [QUOTE];
            [SP] ++ lit "nsubevents" ++ [] ++ ["="%char] ++ [] ++ [QUOTE] ++ lit "2" ++ [QUOTE];
            [SP] ++ lit "as" ++ [] ++ ["="%char] ++ [] ++ [QUOTE] ++ lit "0" ++ [QUOTE]], [].
    split; [apply x_name; [reflexivity|discriminate]|]. split.
    { repeat (apply Forall_cons; [apply x_name; [reflexivity|discriminate]|]). apply Forall_nil. }
    split; [apply x_keys; reflexivity|]. split; [|split; [apply x_space; reflexivity|cbn; rewrite <- !app_assoc; reflexivity]].
    apply Forall2_cons; [apply x_attr; try reflexivity; [discriminate|exact Hv]|].
    repeat (apply Forall2_cons; [apply x_attr; try reflexivity; discriminate|]). apply Forall2_nil. }
  split; [apply (X (lit "e>0")); reflexivity|]. split; [apply (X (lit "e&gt;0")); reflexivity|]. split; [reflexivity|].
  intros N norm. exists (lit "e>0"), (lit "e&gt;0"). split; [reflexivity|]. split; [reflexivity|discriminate].
Qed.
Print Assumptions C85_entities_refuted.

(** A run with a normalisation and a file with events *)
Definition x_header : text := Eval vm_compute in ln "<?xml version=""1.0""?>" ++ ln "<Eventrecord as='2' nevents=""2"" nsubevents=""2"" name=""RR"">" ++ ln "<e>".
Definition x_stripper : text := Eval vm_compute in x_header ++ m_record ++ st_record2.
Definition x_program : list text -> ending :=
  @cres_program ZN z_double z_show (xml_info x_norm) true false [] isort Some (fun l => rev l) m_resample lib_no_unweight 10.
Definition x_outs : list text := Eval vm_compute in match x_program [m_norm; x_stripper] with Done o => o | _ => [] end.
Example C85_program_case :
  (exists tags, event_files (xml_info x_norm) [m_norm; x_stripper] = Ok ([x_stripper], tags) /\ @extract_scaling ZN tags = [(lit "RR", 2%Z)] /\
   Forall (well_formed (N := ZN) (fun _ => True) z_double (xml_info x_norm) true (extract_scaling tags)) [x_stripper]) /\
  x_program [m_norm; x_stripper] = Done x_outs /\ length x_outs = 1.
Proof.
  split; [|split; [vmr|reflexivity]].
  exists [Normalization (lit "RR") (4%Z : ZN); Eventrecord (lit "RR") 2]. split; [vmr|]. split; [vmr|].
  constructor; [|constructor].
  split; [vmr|]. replace (detect_event_file_format x_stripper) with StripperXml by (symmetry; vmr).
  split; [exists x_header, (skipn 3 m_record ++ st_record2); vmr|]. split; [apply ends_with_false; vmr|].
  intros h rs Hp name n m. assert (Hq : stripper_parts x_stripper x_header [m_record; st_record2]).
  { split; [vmr|]. split; [discriminate|]. split.
    - apply find_none. vmr.
    - assert (Hf : forall r, find subevent_start (tl r) = None -> forall a b, r = a ++ subevent_start ++ b -> a = []).
      { intros r Hr a b ->. destruct a as [|c a]; [reflexivity|]. exfalso. apply find_none in Hr. apply Hr. exists a, b. reflexivity. }
      intros r [<-|[<-|[]]]; (split; [|apply Hf; vmr]); [exists (skipn 3 m_record)|exists (skipn 3 st_record2)]; vmr. }
  destruct (stripper_parts_unique _ _ _ _ _ Hp Hq) as [-> ->].
  replace (xml_info x_norm x_header) with (Some (XEventrecord (N := ZN) (lit "RR") 2 2)) by (symmetry; vmr).
  intros H. injection H as <- <- <-. split; [intros _; cbn; lia|]. intros scale Hs.
  destruct C52_case as (_ & _ & _ & _ & _ & H & _). intros x [<-|[<-|[]]].
  - exists (firstn 7 m_record), (lit "17"), (skipn 9 m_record), 17%Z. split; [|split; [vmr|exact I]].
    split; [vmr|]. split; [exists [SP]; split; [vmr|]; split; [discriminate|repeat constructor]|]. split.
    + apply Forall_forall. intros c [<-|[<-|[]]]; apply number_charb_true; reflexivity.
    + exists (skipn 10 m_record). vmr.
  - destruct (H st_record2 (or_intror (or_introl eq_refl))) as (pre & num & post & v & H1 & H2). exists pre, num, post, v. auto.
Qed.
