(** The contents of the tag Eventrecord. *)
From Verif Require Import Base BaseProofs Num ModelEvent ModelText SpecText TextProofs ParserProofs ModelStripper ModelIO SpecRecord ModelMain SpecMain ModelXml SpecXml XmlProofs.
From Coq Require Import Lia.

(** *** numbers *)
Lemma digits64_app ds : Forall decimal_digit ds -> forall v,
  (dec_from v ds < 2 ^ 64)%N -> digits64_from v ds = Some (dec_from v ds, []).
Proof.
  induction 1 as [|c ds Hc Hds IH]; intros v Hb; cbn [digits64_from]; [reflexivity|].
  rewrite (digit_of _ Hc). pose proof (dec_from_le ds (v * 10 + (N_of_ascii c - 48))) as Hle.
  change (dec_from v (c :: ds)) with (dec_from (v * 10 + (N_of_ascii c - 48)) ds) in *. cbn zeta.
  replace (v * 10 + (N_of_ascii c - 48) <? 2 ^ 64)%N with true by (symmetry; apply N.ltb_lt; lia).
  apply IH. exact Hb.
Qed.
Lemma digits64_some : forall t v x, digits64_from v t = Some (x, []) -> (v < 2 ^ 64)%N ->
  Forall decimal_digit t /\ x = dec_from v t /\ (x < 2 ^ 64)%N.
Proof.
  induction t as [|c t IH]; intros v x; cbn [digits64_from].
  - intros H Hv; injection H as <-. repeat split; auto.
  - destruct (digit c) as [d|] eqn:E; [|intros H; discriminate].
    apply digit_some in E as [Hc ->]. cbn zeta. destruct (_ <? _)%N eqn:B; [|discriminate]. apply N.ltb_lt in B.
    intros H _. destruct (IH _ _ H B) as (Hds & -> & Hx). repeat split; auto.
Qed.
Lemma parse_u64_spec s v : parse_u64 s = Some v <-> u64_text v s.
Proof.
  unfold parse_u64, u64_text. split.
  - destruct s as [|c s]; [discriminate|]. destruct (digit c) eqn:E; [|discriminate].
    destruct (digits64_from 0 (c :: s)) as [[x [|]]|] eqn:D; try discriminate. intros H; injection H as <-.
    destruct (digits64_some _ _ _ D) as (H1 & H2 & H3); [reflexivity|]. repeat split; [discriminate|exact H1| |exact H3].
    symmetry. exact H2.
  - intros (Hne & Hd & Hv & Hb). destruct s as [|c s]; [congruence|]. inversion Hd; subst.
    rewrite (digit_of c) by assumption.
    pose proof (digits64_app (c :: s) Hd 0 Hb) as E. rewrite E. reflexivity.
Qed.
Lemma parse_u64_none s : parse_u64 s = None <-> ~ exists v, u64_text v s.
Proof.
  split.
  - intros H [v Hv]. apply parse_u64_spec in Hv. congruence.
  - intros H. destruct (parse_u64 s) as [v|] eqn:E; [|reflexivity]. exfalso. apply H. exists v. apply parse_u64_spec. exact E.
Qed.

(** *** attributes *)
Definition KN := lit "nevents". Definition KS := lit "nsubevents". Definition KA := lit "as". Definition KM := lit "name".

(** the attribute as seen by one step *)
Lemma add_cases i k v : 
  (k = KN /\ add_attribute i (k, v) = match parse_u64 v with Some x => inr (mkInfo (i_name i) (Some x) (i_nsubevents i) (i_as i)) | None => inl (AttrType k v) end) \/
  (k = KS /\ add_attribute i (k, v) = match parse_u64 v with Some x => inr (mkInfo (i_name i) (i_nevents i) (Some x) (i_as i)) | None => inl (AttrType k v) end) \/
  (k = KM /\ add_attribute i (k, v) = if utf8 v then inr (mkInfo (Some v) (i_nevents i) (i_nsubevents i) (i_as i)) else inl NotUtf8) \/
  (k = KA /\ add_attribute i (k, v) = match parse_u64 v with Some x => inr (mkInfo (i_name i) (i_nevents i) (i_nsubevents i) (Some x)) | None => inl (AttrType k v) end) \/
  (k <> KN /\ k <> KS /\ k <> KM /\ k <> KA /\ add_attribute i (k, v) = inr i).
Proof.
  unfold add_attribute, KN, KS, KM, KA.
  destruct (same_text k (lit "nevents")) eqn:E1; [apply same_text_true in E1; left; split; [exact E1|destruct (parse_u64 v); reflexivity]|].
  destruct (same_text k (lit "nsubevents")) eqn:E2; [apply same_text_true in E2; right; left; split; [exact E2|destruct (parse_u64 v); reflexivity]|].
  destruct (same_text k (lit "name")) eqn:E3; [apply same_text_true in E3; right; right; left; split; [exact E3|reflexivity]|].
  destruct (same_text k (lit "as")) eqn:E4; [apply same_text_true in E4; right; right; right; left; split; [exact E4|destruct (parse_u64 v); reflexivity]|].
  right; right; right; right.
  repeat split; intros ->; rewrite same_text_refl in *; discriminate.
Qed.

(** A field that belongs to a key *)
Definition belongs {A} (get : tag_info -> option A) (key : text) (read : text -> option A) : Prop :=
  (forall i j v, add_attribute i (key, v) = inr j -> exists x, read v = Some x /\ get j = Some x) /\
  (forall i j k v, k <> key -> add_attribute i (k, v) = inr j -> get j = get i).
Ltac cases i k v := destruct (add_cases i k v) as [(-> & H)|[(-> & H)|[(-> & H)|[(-> & H)|(? & ? & ? & ? & H)]]]].
Lemma belongs_nevents : belongs i_nevents KN parse_u64.
Proof.
  split.
  - intros i j v.
    destruct (add_cases i KN v) as [(_ & H)|[(E & _)|[(E & _)|[(E & _)|(E & _)]]]]; try discriminate; [|congruence].
    rewrite H. destruct (parse_u64 v) as [x|]; [|discriminate]. intros E; injection E as <-. eauto.
  - intros i j k v Hk. cases i k v; rewrite H; try congruence;
      try (destruct (parse_u64 v) as [x|]; [|discriminate]; intros E; injection E as <-; reflexivity);
      try (destruct (utf8 v); [|discriminate]; intros E; injection E as <-; reflexivity); intros E; injection E as <-; reflexivity.
Qed.
Lemma belongs_nsubevents : belongs i_nsubevents KS parse_u64.
Proof.
  split.
  - intros i j v.
    destruct (add_cases i KS v) as [(E & _)|[(_ & H)|[(E & _)|[(E & _)|(_ & E & _)]]]]; try discriminate; [|congruence].
    rewrite H. destruct (parse_u64 v) as [x|]; [|discriminate]. intros E; injection E as <-. eauto.
  - intros i j k v Hk. cases i k v; rewrite H; try congruence;
      try (destruct (parse_u64 v) as [x|]; [|discriminate]; intros E; injection E as <-; reflexivity);
      try (destruct (utf8 v); [|discriminate]; intros E; injection E as <-; reflexivity); intros E; injection E as <-; reflexivity.
Qed.
Lemma belongs_as : belongs i_as KA parse_u64.
Proof.
  split.
  - intros i j v.
    destruct (add_cases i KA v) as [(E & _)|[(E & _)|[(E & _)|[(_ & H)|(_ & _ & _ & E & _)]]]]; try discriminate; [|congruence].
    rewrite H. destruct (parse_u64 v) as [x|]; [|discriminate]. intros E; injection E as <-. eauto.
  - intros i j k v Hk. cases i k v; rewrite H; try congruence;
      try (destruct (parse_u64 v) as [x|]; [|discriminate]; intros E; injection E as <-; reflexivity);
      try (destruct (utf8 v); [|discriminate]; intros E; injection E as <-; reflexivity); intros E; injection E as <-; reflexivity.
Qed.
Lemma belongs_name : belongs i_name KM (fun v => if utf8 v then Some v else None).
Proof.
  split.
  - intros i j v.
    destruct (add_cases i KM v) as [(E & _)|[(E & _)|[(_ & H)|[(E & _)|(_ & _ & E & _)]]]]; try discriminate; [|congruence].
    rewrite H. destruct (utf8 v); [|discriminate]. intros E; injection E as <-. eauto.
  - intros i j k v Hk. cases i k v; rewrite H; try congruence;
      try (destruct (parse_u64 v) as [x|]; [|discriminate]; intros E; injection E as <-; reflexivity);
      try (destruct (utf8 v); [|discriminate]; intros E; injection E as <-; reflexivity); intros E; injection E as <-; reflexivity.
Qed.

Lemma adds_field {A} (get : tag_info -> option A) key read : belongs get key read ->
  forall l, NoDup (map fst l) -> forall i j, add_attributes i l = inr j ->
  (forall v, In (key, v) l -> exists x, read v = Some x /\ get j = Some x) /\ (~ In key (map fst l) -> get j = get i).
Proof.
  intros [Hin Hout]. induction l as [|[k v] l IH]; intros Hd i j; cbn [add_attributes].
  - intros E; injection E as <-. split; [intros v []|reflexivity].
  - destruct (add_attribute i (k, v)) as [e|i'] eqn:E; [discriminate|]. intros H. inversion Hd as [|? ? Hn Hd']; subst.
    destruct (IH Hd' _ _ H) as [I1 I2]. cbn [map fst] in *. split.
    + intros v' [Eq|Hv]; [|apply I1; exact Hv]. injection Eq as -> ->. destruct (Hin _ _ _ E) as (x & Hx & Hg).
      exists x. split; [exact Hx|]. rewrite (I2 Hn). exact Hg.
    + intros Hk. rewrite I2 by (intros H'; apply Hk; right; exact H'). apply (Hout _ _ k v); [|exact E].
      intros ->. apply Hk. left. reflexivity.
Qed.

Lemma adds_error : forall l i e, add_attributes i l = inl e -> exists k v, In (k, v) l /\
  ((In k [KN; KS; KA] /\ e = AttrType k v /\ parse_u64 v = None) \/ (k = KM /\ e = NotUtf8 /\ utf8 v = false)).
Proof.
  induction l as [|[k v] l IH]; intros i e; cbn [add_attributes]; [discriminate|].
  destruct (add_attribute i (k, v)) as [e'|i'] eqn:E.
  - intros H; injection H as <-. exists k, v. split; [left; reflexivity|].
    cases i k v; rewrite H in E.
    + left. destruct (parse_u64 v); [discriminate|]. injection E as <-. cbn. auto.
    + left. destruct (parse_u64 v); [discriminate|]. injection E as <-. cbn. auto.
    + right. destruct (utf8 v); [discriminate|]. injection E as <-. auto.
    + left. destruct (parse_u64 v); [discriminate|]. injection E as <-. cbn. auto.
    + discriminate.
  - intros H. destruct (IH _ _ H) as (k' & v' & Hin & Hc). exists k', v'. split; [right; exact Hin|exact Hc].
Qed.

Lemma key_dec (k : text) (l : list (text * text)) : {v | In (k, v) l} + {~ In k (map fst l)}.
Proof.
  induction l as [|[k' v] l IH]; [right; intros []|]. destruct (list_eq_dec ascii_dec k' k) as [->|Hne].
  - left. exists v. left. reflexivity.
  - destruct IH as [[v' Hv]|Hn]; [left; exists v'; right; exact Hv|]. right. intros [E|H]; [cbn in E; contradiction|contradiction].
Qed.
Lemma key_unique (l : list (text * text)) k v v' : NoDup (map fst l) -> In (k, v) l -> In (k, v') l -> v = v'.
Proof.
  induction l as [|[x y] l IH]; intros Hd; [intros []|]. cbn [map fst] in Hd. inversion Hd as [|? ? Hn Hd']; subst.
  intros [E|H] [E'|H'].
  - congruence.
  - injection E as -> ->. exfalso. apply Hn. apply (in_map fst) in H'. exact H'.
  - injection E' as -> ->. exfalso. apply Hn. apply (in_map fst) in H. exact H.
  - apply IH; assumption.
Qed.

Section Extract.
Context {N : NumOps} (norm : text -> option (text * N)).

Lemma file_content name attrs rest t : xml_file name attrs rest t -> exists parts w,
  extract_xml_info norm t =
    (if same_text name (lit "Normalization") then
       match norm ("<"%char :: content_of name parts w ++ ">"%char :: rest) with
       | Some (n, s) => inr (NormalizationTag n s) | None => inl NormalizationDeser end
     else if same_text name (lit "Eventrecord") then event_record_tag (content_of name parts w)
     else if utf8 name then inl (BadTag name) else inl NotUtf8) /\
  event_record_tag (N := N) (content_of name parts w) =
    match add_attributes no_info attrs with
    | inl e => inl e
    | inr i =>
      match i_name i, i_nsubevents i, i_nevents i, i_as i with
      | None, _, _, _ => inl (NoEventrecordAttr (lit "name"))
      | _, None, _, _ => inl (NoEventrecordAttr (lit "nsubevents"))
      | _, _, None, _ => inl (NoEventrecordAttr (lit "nevents"))
      | _, _, _, None => inl (NoEventrecordAttr (lit "as"))
      | Some name, Some nsubevents, Some nevents, Some alpha_s_power =>
          inr (EventrecordTag alpha_s_power name nevents nsubevents)
      end
    end /\ ("<"%char :: content_of name parts w ++ [">"%char] = "<"%char :: name ++ concat parts ++ w ++ [">"%char]) /\
  NoDup (map fst attrs).
Proof.
  intros H. destruct (file_tag name attrs rest t H) as (parts & w & [Hn0 Hn] & Hk & Hd & F & Hw & E). exists parts, w.
  pose proof (name_span name parts w attrs Hn F Hw) as Hs. split; [|split; [|split]].
  - unfold extract_xml_info. fold (without_mark t). rewrite E. unfold tag_name. unfold text in *. rewrite Hs. cbn [fst]. reflexivity.
  - unfold event_record_tag. unfold text in *. rewrite Hs. cbn [snd].
    rewrite (attributes_read attrs parts Hk Hd F); [reflexivity|exact Hw| |intros a _ []].
    pose proof (parts_length attrs parts F) as Hl. unfold content_of. rewrite !app_length. unfold text in *. lia.
  - unfold content_of. rewrite <- !app_assoc. reflexivity.
  - exact Hd.
Qed.

Lemma record_accepts attrs rest t : xml_file (lit "Eventrecord") attrs rest t -> forall a n nev nsub,
  extract_xml_info norm t = inr (EventrecordTag a n nev nsub) <->
  has_value attrs "name" n /\ utf8 n = true /\ has_number attrs "nevents" nev /\ has_number attrs "nsubevents" nsub /\ has_number attrs "as" a.
Proof.
  intros H a n nev nsub. destruct (file_content _ _ _ _ H) as (parts & w & E & E' & _ & Hd).
  change (same_text (lit "Eventrecord") (lit "Normalization")) with false in E. rewrite same_text_refl in E. cbn iota in E.
  rewrite E, E'. clear E E'. destruct (add_attributes no_info attrs) as [e|i] eqn:Ea.
  - split; [discriminate|]. intros (Hn & Hu & H1 & H2 & H3). exfalso.
    destruct (adds_error _ _ _ Ea) as (k & v & Hin & [(Hk & _ & Hp)|(-> & _ & Hp)]).
    + apply parse_u64_none in Hp. apply Hp. destruct Hk as [<-|[<-|[<-|[]]]].
      * destruct H1 as (s & Hs & Hu1). exists nev. rewrite (key_unique attrs KN v s Hd Hin Hs). exact Hu1.
      * destruct H2 as (s & Hs & Hu1). exists nsub. rewrite (key_unique attrs KS v s Hd Hin Hs). exact Hu1.
      * destruct H3 as (s & Hs & Hu1). exists a. rewrite (key_unique attrs KA v s Hd Hin Hs). exact Hu1.
    + rewrite (key_unique attrs KM v n Hd Hin Hn) in Hp. congruence.
  - destruct (adds_field i_nevents KN parse_u64 belongs_nevents attrs Hd _ _ Ea) as [N1 N2].
    destruct (adds_field i_nsubevents KS parse_u64 belongs_nsubevents attrs Hd _ _ Ea) as [S1 S2].
    destruct (adds_field i_as KA parse_u64 belongs_as attrs Hd _ _ Ea) as [A1 A2].
    destruct (adds_field i_name KM _ belongs_name attrs Hd _ _ Ea) as [M1 M2]. split.
    + intros Hr. destruct (i_name i) as [n'|] eqn:En; [|discriminate]. destruct (i_nsubevents i) as [s'|] eqn:Es; [|discriminate].
      destruct (i_nevents i) as [v'|] eqn:Ev; [|discriminate]. destruct (i_as i) as [a'|] eqn:Eas; [|discriminate].
      injection Hr as -> -> -> ->.
      destruct (key_dec KM attrs) as [[v Hv]|Hno]; [|apply M2 in Hno; discriminate].
      destruct (M1 v Hv) as (x & Hx & Ex). destruct (utf8 v) eqn:Hu; [|discriminate]. injection Hx as <-. injection Ex as ->.
      split; [exact Hv|]. split; [exact Hu|].
      destruct (key_dec KN attrs) as [[v1 Hv1]|Hno]; [|apply N2 in Hno; discriminate].
      destruct (N1 v1 Hv1) as (x1 & Hx1 & Ex1). injection Ex1 as ->.
      destruct (key_dec KS attrs) as [[v2 Hv2]|Hno]; [|apply S2 in Hno; discriminate].
      destruct (S1 v2 Hv2) as (x2 & Hx2 & Ex2). injection Ex2 as ->.
      destruct (key_dec KA attrs) as [[v3 Hv3]|Hno]; [|apply A2 in Hno; discriminate].
      destruct (A1 v3 Hv3) as (x3 & Hx3 & Ex3). injection Ex3 as ->.
      split; [|split]; [exists v1|exists v2|exists v3]; (split; [assumption|apply parse_u64_spec; assumption]).
    + intros (Hn & Hu & (s1 & H1 & U1) & (s2 & H2 & U2) & (s3 & H3 & U3)).
      destruct (M1 n Hn) as (x & Hx & ->). rewrite Hu in Hx. injection Hx as <-.
      destruct (S1 s2 H2) as (x & Hx & ->). apply parse_u64_spec in U2. pose proof (eq_trans (eq_sym Hx) U2) as E2. injection E2 as ->.
      destruct (N1 s1 H1) as (y & Hy & ->). apply parse_u64_spec in U1. pose proof (eq_trans (eq_sym Hy) U1) as E1. injection E1 as ->.
      destruct (A1 s3 H3) as (z & Hz & ->). apply parse_u64_spec in U3. pose proof (eq_trans (eq_sym Hz) U3) as E3. injection E3 as ->.
      reflexivity.
Qed.

Lemma record_errors attrs rest t : xml_file (lit "Eventrecord") attrs rest t ->
  match extract_xml_info norm t with
  | inr (EventrecordTag _ _ _ _) => True
  | inr (NormalizationTag _ _) => False
  | inl (NoEventrecordAttr k) => In k [KM; KS; KN; KA] /\ ~ In k (map fst attrs)
  | inl (AttrType k v) => In k [KN; KS; KA] /\ In (k, v) attrs /\ ~ exists x, u64_text x v
  | inl NotUtf8 => exists v, In (KM, v) attrs /\ utf8 v = false
  | inl _ => False
  end.
Proof.
  intros H. destruct (file_content _ _ _ _ H) as (parts & w & E & E' & _ & Hd).
  change (same_text (lit "Eventrecord") (lit "Normalization")) with false in E. rewrite same_text_refl in E. cbn iota in E.
  rewrite E, E'. clear E E'. destruct (add_attributes no_info attrs) as [e|i] eqn:Ea.
  - destruct (adds_error _ _ _ Ea) as (k & v & Hin & [(Hk & -> & Hp)|(-> & -> & Hp)]).
    + split; [exact Hk|]. split; [exact Hin|]. apply parse_u64_none. exact Hp.
    + exists v. auto.
  - destruct (adds_field i_nevents KN parse_u64 belongs_nevents attrs Hd _ _ Ea) as [N1 N2].
    destruct (adds_field i_nsubevents KS parse_u64 belongs_nsubevents attrs Hd _ _ Ea) as [S1 S2].
    destruct (adds_field i_as KA parse_u64 belongs_as attrs Hd _ _ Ea) as [A1 A2].
    destruct (adds_field i_name KM _ belongs_name attrs Hd _ _ Ea) as [M1 M2].
    destruct (i_name i) eqn:En.
    2: { split; [left; reflexivity|]. destruct (key_dec KM attrs) as [[v Hv]|Hno]; [|exact Hno].
         destruct (M1 v Hv) as (x & _ & Ex). discriminate. }
    destruct (i_nsubevents i) eqn:Es.
    2: { split; [right; left; reflexivity|]. destruct (key_dec KS attrs) as [[v Hv]|Hno]; [|exact Hno].
         destruct (S1 v Hv) as (x & _ & Ex). discriminate. }
    destruct (i_nevents i) eqn:Ev.
    2: { split; [right; right; left; reflexivity|]. destruct (key_dec KN attrs) as [[v Hv]|Hno]; [|exact Hno].
         destruct (N1 v Hv) as (x & _ & Ex). discriminate. }
    destruct (i_as i) eqn:Eas; [exact I|].
    split; [right; right; right; left; reflexivity|]. destruct (key_dec KA attrs) as [[v Hv]|Hno]; [|exact Hno].
    destruct (A1 v Hv) as (x & _ & Ex). discriminate.
Qed.

(** *** no tag *)
Lemma first_tag_prolog p : prolog p -> exists n, 7 * n <= length p /\ forall x fuel,
  n < fuel -> exists fuel', 0 < fuel' /\ first_tag fuel (p ++ "<"%char :: x) = first_tag fuel' ("<"%char :: x).
Proof.
  induction 1 as [s Hs|s body p Hs Hb Ho Hp (n & Hn & IH)].
  - exists 0. split; [lia|]. intros x fuel Hf. exists fuel. split; [exact Hf|]. apply first_tag_text. exact Hs.
  - exists (S n). split; [rewrite !app_length; cbn [length list_ascii_of_string]; lia|].
    intros y fuel Hf. destruct fuel as [|fuel]; [lia|]. destruct (IH y fuel ltac:(lia)) as (fuel' & Hf' & E). exists fuel'. split; [exact Hf'|].
    rewrite <- E. cbn [first_tag].
    rewrite <- !app_assoc. change (list_ascii_of_string "<?xml") with ("<"%char :: "?"%char :: lit "xml"). cbn [app].
    rewrite to_open by exact Hs. change (ceq "?" "?") with true. cbn beta iota.
    set (x := p ++ "<"%char :: y).
    assert (Hx : find (lit "?>") ((lit "xml" ++ body) ++ lit "?>" ++ x) = Some (length (lit "xml" ++ body))).
    { apply find_end. intros (a & b & E'). apply Ho. destruct a as [|a0 [|a1 [|a2 a]]]; try discriminate.
      injection E' as _ _ _ E'. exists a, b. exact E'. }
    replace (lit "xml" ++ body ++ list_ascii_of_string "?>" ++ x) with ((lit "xml" ++ body) ++ lit "?>" ++ x) by (rewrite <- !app_assoc; reflexivity).
    rewrite Hx. rewrite firstn_app, firstn_all, Nat.sub_diag. cbn [firstn]. rewrite app_nil_r.
    replace (is_decl (lit "xml" ++ body)) with true.
    + rewrite (app_assoc (lit "xml" ++ body) (lit "?>") x).
      replace (length (lit "xml" ++ body) + 2) with (length ((lit "xml" ++ body) ++ lit "?>")) by (rewrite (app_length _ (lit "?>")); reflexivity).
      rewrite skipn_app, skipn_all, Nat.sub_diag. reflexivity.
    + symmetry. unfold is_decl. rewrite strip_prefix_app. destruct body as [|b body]; [reflexivity|]. cbn in Hb. inversion Hb; subst.
      apply xml_ws_true. assumption.
Qed.
Lemma no_first_tag mark p c x : mark = [] \/ mark = ["239"; "187"; "191"]%char -> prolog p ->
  (forall fuel, first_tag fuel ("<"%char :: c :: x) = None) -> extract_xml_info norm (mark ++ p ++ "<"%char :: c :: x) = inl NoTag.
Proof.
  intros Hm Hp Hx. unfold extract_xml_info. set (t := mark ++ p ++ "<"%char :: c :: x). fold (without_mark t).
  enough (E : first_tag (S (length (without_mark t))) (without_mark t) = None) by (rewrite E; reflexivity).
  destruct (first_tag_prolog p Hp) as (n & Hn & H).
  assert (Hlt : n < S (length (without_mark t))).
  { assert (length t <= length (without_mark t) + 3).
    { unfold without_mark. destruct (strip_prefix _ t) as [t'|] eqn:E; [|lia]. apply strip_prefix_some in E. rewrite E. cbn [app length]. lia. }
    assert (length t = length mark + (length p + S (S (length x)))) by (unfold t; rewrite !app_length; reflexivity). lia. }
  rewrite without_mark_first. remember (S (length (without_mark t))) as fuel. unfold t.
  rewrite first_tag_text by (destruct Hm as [->| ->]; [intros []|intros [E|[E|[E|[]]]]; discriminate]).
  destruct (H (c :: x) fuel Hlt) as (fuel' & _ & E). unfold text in *. rewrite E. apply Hx.
Qed.
Lemma empty_tag name attrs parts w rest : xml_name name -> Forall (fun a => xml_name (fst a)) attrs ->
  Forall2 (fun a part => attribute_text (fst a) (snd a) part) attrs parts -> xml_space w ->
  forall fuel, first_tag fuel ("<"%char :: (name ++ concat parts ++ w ++ ["/"%char]) ++ ">"%char :: rest) = None.
Proof.
  intros [Hne Hn] Hk F Hw [|fuel]; [reflexivity|]. set (content := name ++ concat parts ++ w ++ ["/"%char]).
  assert (Hcl : clear content).
  { apply clear_app; [apply clear_name; exact Hn|]. apply clear_app; [eapply clear_parts; eassumption|].
    apply clear_app; [apply clear_space; exact Hw|]. apply clear_char; [discriminate|reflexivity]. }
  assert (Hend : ends_with content (lit "/") = true).
  { apply ends_with_true. exists (name ++ concat parts ++ w). unfold content. rewrite <- !app_assoc. reflexivity. }
  assert (Hc : exists c r, content = c :: r /\ name_char c).
  { destruct name as [|c name]; [congruence|]. inversion Hn; subst. eexists _, _. split; [reflexivity|assumption]. }
  destruct Hc as (c & r & E & Hc). specialize (Hcl (">"%char :: rest) [] rest eq_refl). rewrite app_nil_r in Hcl.
  cbn [first_tag span]. change (ceq "<" "<") with true. cbn [negb snd].
  rewrite E in Hcl, Hend |- *. cbn [app] in *.
  pose proof (name_char_facts _ Hc) as (_ & _ & _ & _ & H1 & H2 & H3 & _).
  rewrite (ceq_no _ _ H3), (ceq_no _ _ H2), (ceq_no _ _ H1). cbn [orb]. unfold text in *. rewrite Hcl, Hend. reflexivity.
Qed.

(** *** what follows the tag *)
Lemma element_app q : forall t a b rest, element q t = Some (a, b) -> element q (t ++ rest) = Some (a, b ++ rest).
Proof.
  intros t. revert q. induction t as [|c t IH]; intros q a b rest; cbn [element app]; [discriminate|].
  destruct q as [q|].
  - destruct (element _ t) as [[x y]|] eqn:E; [|discriminate]. intros H. injection H as <- <-.
    rewrite (IH _ _ _ rest E). reflexivity.
  - destruct (ceq c ">"); [intros H; injection H as <- <-; reflexivity|].
    destruct (element _ t) as [[x y]|] eqn:E; [|discriminate]. intros H. injection H as <- <-.
    rewrite (IH _ _ _ rest E). reflexivity.
Qed.
Lemma find_app sub : forall t n rest, find sub t = Some n -> find sub (t ++ rest) = Some n.
Proof.
  assert (P : forall t r rest, strip_prefix sub t = Some r -> strip_prefix sub (t ++ rest) = Some (r ++ rest)).
  { intros t r rest H. apply strip_prefix_some in H. subst t. rewrite <- app_assoc. apply strip_prefix_app. }
  induction t as [|c t IH]; intros n rest.
  - cbn [find]. destruct (strip_prefix sub []) as [r|] eqn:E; [|discriminate]. intros H; injection H as <-.
    apply (P _ _ rest) in E. cbn [app] in *. destruct rest; cbn [find]; rewrite E; reflexivity.
  - cbn [find app]. destruct (strip_prefix sub (c :: t)) as [r|] eqn:E.
    + intros H; injection H as <-. apply (P _ _ rest) in E. cbn [app] in E. rewrite E. reflexivity.
    + destruct (find sub t) as [m|] eqn:F; [|discriminate]. intros H; injection H as <-.
      destruct (strip_prefix sub (c :: t ++ rest)) as [r|] eqn:E'.
      * exfalso. apply find_some in F as (a & b & -> & Hl & Hm). apply strip_prefix_none in E.
        apply strip_prefix_some in E'. apply E. 
        assert (Hlen : length sub <= length (c :: a ++ sub ++ b)) by (cbn [length]; rewrite !app_length; lia).
        exists (skipn (length sub) (c :: a ++ sub ++ b)).
        assert (Hf : firstn (length sub) (c :: a ++ sub ++ b) = sub).
        { transitivity (firstn (length sub) ((c :: a ++ sub ++ b) ++ rest)).
          - rewrite firstn_app. replace (length sub - length (c :: a ++ sub ++ b)) with 0 by lia. cbn [firstn]. rewrite app_nil_r. reflexivity.
          - cbn [app]. rewrite E', firstn_app, firstn_all, Nat.sub_diag. cbn [firstn]. apply app_nil_r. }
        pose proof (firstn_skipn (length sub) (c :: a ++ sub ++ b)) as Hx. rewrite Hf in Hx. symmetry. exact Hx.
      * rewrite (IH _ rest eq_refl). reflexivity.
Qed.
Lemma find_le sub : forall t n, find sub t = Some n -> n + length sub <= length t.
Proof. intros t n H. apply find_some in H as (a & b & -> & <- & _). rewrite !app_length. lia. Qed.

Lemma first_tag_app : forall fuel t c r rest fuel', first_tag fuel t = Some (c, r) -> fuel <= fuel' ->
  first_tag fuel' (t ++ rest) = Some (c, r ++ rest).
Proof.
  induction fuel as [|fuel IH]; intros t c r rest [|fuel'] H Hf; try discriminate; [lia|]. cbn [first_tag] in *.
  destruct (span (fun c => negb (ceq c "<")) t) as [pre x] eqn:E. cbn [snd] in H.
  destruct x as [|o x]; [discriminate|]. destruct x as [|d x]; [discriminate|].
  apply span_spec in E as (-> & Hp & Ho). cbn in Ho.
  rewrite <- app_assoc, span_app; [|exact Hp|exact Ho]. cbn [snd app].
  destruct (ceq d "?").
  - destruct (find (lit "?>") x) as [n|] eqn:Ef; [|discriminate]. rewrite (find_app _ _ _ rest Ef).
    pose proof (find_le _ _ _ Ef) as Hle. cbn [length lit list_ascii_of_string] in Hle.
    rewrite firstn_app. replace (n - length x) with 0 by lia. cbn [firstn]. rewrite app_nil_r.
    destruct (is_decl (firstn n x)); [|discriminate].
    rewrite skipn_app. replace (n + 2 - length x) with 0 by lia. cbn [skipn]. apply IH; [exact H|lia].
  - destruct (ceq d "!" || ceq d "/"); [discriminate|].
    destruct (element None (d :: x)) as [[a b]|] eqn:Ee; [|discriminate].
    pose proof (element_app None _ _ _ rest Ee) as Ee'. cbn [app] in Ee'. rewrite Ee'.
    destruct (ends_with a (lit "/")); [discriminate|]. injection H as -> ->. reflexivity.
Qed.

Lemma extract_tag t c r : first_tag (S (length (without_mark t))) (without_mark t) = Some (c, r) ->
  forall rest, first_tag (S (length (without_mark (t ++ rest)))) (without_mark (t ++ rest)) = Some (c, r ++ rest).
Proof.
  intros H rest. rewrite without_mark_first in H |- *. apply (first_tag_app _ _ _ _ rest (S (length (without_mark (t ++ rest)))) H).
  apply le_n_S. unfold without_mark.
  destruct (strip_prefix _ t) as [x|] eqn:E.
  - apply strip_prefix_some in E. subst t. rewrite <- app_assoc, strip_prefix_app, app_length. lia.
  - destruct (strip_prefix _ (t ++ rest)) as [x|] eqn:E'; [|rewrite app_length; lia].
    exfalso. apply strip_prefix_none in E. apply strip_prefix_some in E'.
    assert (Hl : length t < 3).
    { destruct (Nat.lt_ge_cases (length t) 3) as [Hl|Hl]; [exact Hl|]. exfalso. apply E.
      destruct t as [|t0 [|t1 [|t2 t]]]; cbn in Hl; try lia. injection E' as -> -> -> E'. exists t. reflexivity. }
    destruct t as [|t0 [|t1 [|t2 t]]]; cbn in Hl; try lia; cbn [app] in E'.
    + cbn in H. discriminate.
    + injection E' as -> E'. cbn in H. discriminate.
    + injection E' as -> -> E'. cbn in H. discriminate.
Qed.

Lemma xml_stops : stops_at_tag (xml_info norm).
Proof.
  intros t rest name nevents nsubevents. unfold xml_info, extract_xml_info. fold (without_mark t). fold (without_mark (t ++ rest)).
  destruct (first_tag (S (length (without_mark t))) (without_mark t)) as [[c r]|] eqn:E; [|discriminate].
  rewrite (extract_tag t c r E rest).
  destruct (same_text (tag_name c) (lit "Normalization")).
  - destruct (norm _) as [[? ?]|]; discriminate.
  - destruct (same_text (tag_name c) (lit "Eventrecord")); [auto|]. destruct (utf8 (tag_name c)); discriminate.
Qed.
End Extract.
