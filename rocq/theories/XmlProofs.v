(** Reading the first tag of an XML file. *)
From Verif Require Import Base BaseProofs Num ModelEvent ModelText SpecText TextProofs ParserProofs ModelStripper ModelIO SpecRecord ModelMain SpecMain ModelXml SpecXml.
From Coq Require Import Lia.

Lemma same_text_true a b : same_text a b = true <-> a = b.
Proof. unfold same_text. destruct (list_eq_dec ascii_dec a b); split; congruence. Qed.
Lemma same_text_refl a : same_text a a = true.
Proof. apply same_text_true. reflexivity. Qed.
Lemma same_text_false a b : a <> b -> same_text a b = false.
Proof. intros H. destruct (same_text a b) eqn:E; [|reflexivity]. apply same_text_true in E. contradiction. Qed.

Lemma ceq_no a b : a <> b -> ceq a b = false.
Proof. intros H. destruct (ceq a b) eqn:E; [|reflexivity]. apply ceq_true in E. contradiction. Qed.
Lemma ceq_yes a : ceq a a = true. Proof. apply ceq_true. reflexivity. Qed.

(** *** white space *)
Definition ws (c : ascii) : Prop := (c = " " \/ c = "009" \/ c = "010" \/ c = "013")%char.
Lemma xml_ws_true c : xml_ws c = true <-> ws c.
Proof. unfold xml_ws, ws. rewrite !orb_true_iff, !ceq_true. unfold SP, TAB, NL, CR. tauto. Qed.
Lemma xml_ws_false c : ~ ws c -> xml_ws c = false.
Proof. intros H. destruct (xml_ws c) eqn:E; [|reflexivity]. apply xml_ws_true in E. contradiction. Qed.
Lemma space_true w : xml_space w -> Forall (fun c => xml_ws c = true) w.
Proof. apply Forall_impl. intros c H. apply xml_ws_true. exact H. Qed.

Lemma skip_ws_app w r : xml_space w -> heads (fun c => ~ ws c) r -> skip_ws (w ++ r) = r.
Proof.
  intros Hw Hr. unfold skip_ws. rewrite span_app; [reflexivity|apply space_true; exact Hw|].
  destruct r as [|c r]; [exact I|]. cbn in Hr |- *. apply xml_ws_false. exact Hr.
Qed.

Lemma name_char_facts c : name_char c ->
  ~ ws c /\ c <> "="%char /\ c <> ">"%char /\ c <> "<"%char /\ c <> "/"%char /\ c <> "!"%char /\ c <> "?"%char /\ c <> """"%char /\ c <> "'"%char.
Proof.
  intros H. unfold ws. repeat split; [intros [->|[->|[->| ->]]]|intros ->|intros ->|intros ->|intros ->|intros ->|intros ->|intros ->|intros ->];
    apply H; cbn; tauto.
Qed.
Lemma quote_cases c : is_quote c = true <-> c = """"%char \/ c = "'"%char.
Proof. unfold is_quote, QUOTE. rewrite orb_true_iff, !ceq_true. reflexivity. Qed.
Lemma quote_false c : c <> """"%char -> c <> "'"%char -> is_quote c = false.
Proof. intros H H'. destruct (is_quote c) eqn:E; [|reflexivity]. apply quote_cases in E as [E|E]; contradiction. Qed.

(** *** the end of the tag *)
Definition clear (s : text) : Prop := forall x a b, element None x = Some (a, b) -> element None (s ++ x) = Some (s ++ a, b).
Lemma clear_nil : clear []. Proof. intros x a b H. exact H. Qed.
Lemma clear_app s s' : clear s -> clear s' -> clear (s ++ s').
Proof. intros H H' x a b E. rewrite <- !app_assoc. apply H, H'. exact E. Qed.
Lemma clear_char c : c <> ">"%char -> is_quote c = false -> clear [c].
Proof. intros H Hq x a b E. cbn [app element]. rewrite (ceq_no _ _ H), Hq, E. reflexivity. Qed.
Lemma clear_all s : Forall (fun c => c <> ">"%char /\ is_quote c = false) s -> clear s.
Proof.
  induction 1 as [|c s [H Hq] _ IH]; [exact clear_nil|]. change (c :: s) with ([c] ++ s).
  apply clear_app; [apply clear_char; assumption|exact IH].
Qed.
Lemma clear_name s : Forall name_char s -> clear s.
Proof.
  intros H. apply clear_all. eapply Forall_impl; [|exact H]. intros c Hc.
  apply name_char_facts in Hc as (_ & _ & H1 & _ & _ & _ & _ & H2 & H3). split; [exact H1|apply quote_false; assumption].
Qed.
Lemma clear_space s : xml_space s -> clear s.
Proof.
  intros H. apply clear_all. eapply Forall_impl; [|exact H]. cbn beta. intros c [->|[->|[->| ->]]]; (split; [discriminate|reflexivity]).
Qed.
Lemma clear_quoted q v : q = """"%char \/ q = "'"%char -> ~ In q v -> clear ([q] ++ v ++ [q]).
Proof.
  intros Hq Hv x a b E.
  assert (H : forall v, ~ In q v -> element (Some q) ((v ++ [q]) ++ x) = Some ((v ++ [q]) ++ a, b)).
  { clear v Hv. induction v as [|c v IH]; intros Hv; cbn [app element].
    - rewrite ceq_yes, E. reflexivity.
    - rewrite ceq_no by (intros ->; apply Hv; left; reflexivity).
      rewrite IH by (intros H; apply Hv; right; exact H). reflexivity. }
  cbn [app element]. assert (Hgt : q <> ">"%char) by (destruct Hq as [->| ->]; discriminate).
  rewrite (ceq_no _ _ Hgt). replace (is_quote q) with true by (symmetry; apply quote_cases; exact Hq).
  specialize (H v Hv). cbn [app] in H. unfold text in *. rewrite H. reflexivity.
Qed.
Lemma clear_attribute k v s : xml_name k -> attribute_text k v s -> clear s.
Proof.
  intros [_ Hk] (w0 & w1 & w2 & q & _ & H0 & H1 & H2 & Hq & Hv & ->).
  apply clear_app; [apply clear_space; exact H0|]. apply clear_app; [apply clear_name; exact Hk|].
  apply clear_app; [apply clear_space; exact H1|]. apply clear_app; [apply clear_char; [discriminate|reflexivity]|].
  apply clear_app; [apply clear_space; exact H2|]. apply clear_quoted; assumption.
Qed.
Lemma clear_parts attrs parts : Forall (fun a => xml_name (fst a)) attrs ->
  Forall2 (fun a part => attribute_text (fst a) (snd a) part) attrs parts -> clear (concat parts).
Proof.
  intros H F. induction F as [|a p l ps Ha _ IH]; [exact clear_nil|]. inversion H; subst.
  cbn [concat]. apply clear_app; [eapply clear_attribute; eassumption|apply IH; assumption].
Qed.

(** *** the tag is not empty *)
Definition open_end (s : text) : Prop := s = [] \/ exists a c, s = a ++ [c] /\ c <> "/"%char.
Lemma open_end_app s s' : open_end s -> open_end s' -> open_end (s ++ s').
Proof.
  intros H [->|(a & c & -> & Hc)]; [rewrite app_nil_r; exact H|]. right. exists (s ++ a), c. split; [apply app_assoc|exact Hc].
Qed.
Lemma open_end_all s : Forall (fun c => c <> "/"%char) s -> open_end s.
Proof.
  intros H. destruct s as [|x s']; [left; reflexivity|].
  destruct (@exists_last _ (x :: s') ltac:(discriminate)) as (a & c & E). right. exists a, c. split; [exact E|].
  rewrite E in H. apply Forall_app in H as [_ H]. inversion H; assumption.
Qed.
Lemma open_end_attribute k v s : attribute_text k v s -> open_end s.
Proof.
  intros (w0 & w1 & w2 & q & _ & H0 & H1 & H2 & Hq & Hv & ->). right.
  exists (w0 ++ k ++ w1 ++ ["="%char] ++ w2 ++ [q] ++ v), q. split; [rewrite <- !app_assoc; reflexivity|].
  destruct Hq as [->| ->]; discriminate.
Qed.
Lemma open_end_parts attrs parts : Forall2 (fun a part => attribute_text (fst a) (snd a) part) attrs parts -> open_end (concat parts).
Proof.
  intros F. induction F as [|a p l ps Ha _ IH]; [left; reflexivity|]. cbn [concat].
  apply open_end_app; [eapply open_end_attribute; exact Ha|exact IH].
Qed.
Lemma open_end_not s : open_end s -> ends_with s (lit "/") = false.
Proof.
  intros H. destruct (ends_with s (lit "/")) eqn:E; [|reflexivity]. apply ends_with_true in E as [x E].
  destruct H as [->|(a & c & -> & Hc)]; [destruct x; discriminate|].
  apply app_inj_tail in E as [_ E]. contradiction.
Qed.

(** *** attributes *)
Lemma attributes_read : forall attrs parts, Forall (fun a => xml_name (fst a)) attrs -> NoDup (map fst attrs) ->
  Forall2 (fun a part => attribute_text (fst a) (snd a) part) attrs parts ->
  forall w fuel seen, xml_space w -> length attrs < fuel -> (forall a, In a attrs -> ~ In (fst a) seen) ->
  attributes fuel seen (concat parts ++ w) = attrs.
Proof.
  intros attrs parts Hn Hd F. revert Hn Hd. induction F as [|[k v] p l ps Ha F IH]; intros Hn Hd w fuel seen Hw Hf Hs.
  - destruct fuel; [reflexivity|]. cbn [concat app attributes]. rewrite <- (app_nil_r w), skip_ws_app; [reflexivity|exact Hw|exact I].
  - destruct fuel as [|fuel]; [cbn in Hf; lia|]. cbn [fst snd] in *.
    inversion Hn as [|? ? [Hk0 Hk] Hn']; subst. cbn [map fst] in *. inversion Hd as [|? ? Hnin Hd']; subst.
    destruct Ha as (w0 & w1 & w2 & q & _ & H0 & H1 & H2 & Hq & Hv & ->).
    cbn [concat]. destruct k as [|c k]; [congruence|]. inversion Hk as [|? ? Hc Hk']; subst.
    pose proof (name_char_facts _ Hc) as (Hcw & _).
    rewrite <- !app_assoc. cbn [attributes]. rewrite skip_ws_app; [|exact H0|exact Hcw]. cbn [app].
    assert (Heq : skip_ws (w1 ++ "="%char :: w2 ++ q :: v ++ q :: concat ps ++ w) = "="%char :: w2 ++ q :: v ++ q :: concat ps ++ w).
    { apply skip_ws_app; [exact H1|]. cbn. unfold ws. intros [E|[E|[E|E]]]; discriminate. }
    assert (Hsp : span (fun c => negb (ceq c "=" || xml_ws c)) (k ++ w1 ++ "="%char :: w2 ++ q :: v ++ q :: concat ps ++ w) =
      (k, w1 ++ "="%char :: w2 ++ q :: v ++ q :: concat ps ++ w)).
    { apply span_app.
      - eapply Forall_impl; [|exact Hk']. intros x Hx. pose proof (name_char_facts _ Hx) as (Hx1 & Hx2 & _).
        rewrite (ceq_no _ _ Hx2), (xml_ws_false _ Hx1). reflexivity.
      - destruct w1 as [|x w1]; [reflexivity|]. cbn. inversion H1; subst.
        replace (xml_ws x) with true by (symmetry; apply xml_ws_true; assumption). rewrite orb_true_r. reflexivity. }
    unfold text in *. rewrite Hsp, Heq. rewrite ceq_yes.
    assert (Hqw : ~ ws q) by (destruct Hq as [->| ->]; intros [E|[E|[E|E]]]; discriminate).
    rewrite skip_ws_app; [|exact H2|exact Hqw].
    replace (is_quote q) with true by (symmetry; apply quote_cases; exact Hq).
    assert (Hsv : span (fun c => negb (ceq c q)) (v ++ q :: concat ps ++ w) = (v, q :: concat ps ++ w)).
    { apply span_app; [|cbn; rewrite ceq_yes; reflexivity]. apply Forall_forall. intros x Hx.
      rewrite ceq_no; [reflexivity|]. intros ->. contradiction. }
    rewrite Hsv.
    assert (Hex : existsb (same_text (c :: k)) seen = false).
    { destruct (existsb (same_text (c :: k)) seen) eqn:E; [|reflexivity]. apply existsb_exists in E as (x & Hx & Ex).
      apply same_text_true in Ex. subst x. exfalso. apply (Hs (c :: k, v)); [left; reflexivity|exact Hx]. }
    unfold text in *. rewrite Hex. f_equal. apply IH; auto; [cbn in Hf; lia|]. intros [k' v'] Ha [E|Hin].
    + cbn [fst] in E. subst k'. apply Hnin. apply (in_map fst) in Ha. exact Ha.
    + apply (Hs (k', v')); [right; exact Ha|exact Hin].
Qed.

(** *** the tag *)
Definition content_of (name : text) (parts : list text) (w : text) : text := name ++ concat parts ++ w.
Lemma parts_heads attrs parts w : Forall2 (fun a part => attribute_text (fst a) (snd a) part) attrs parts -> xml_space w ->
  heads ws (concat parts ++ w).
Proof.
  intros F Hw. destruct F as [|a p l ps Ha _].
  - cbn. destruct w as [|c w]; [exact I|]. inversion Hw; assumption.
  - destruct Ha as (w0 & w1 & w2 & q & Hne & H0 & _ & _ & _ & _ & ->). destruct w0 as [|c w0]; [congruence|].
    inversion H0; assumption.
Qed.
Lemma name_span name parts w attrs : Forall name_char name ->
  Forall2 (fun a part => attribute_text (fst a) (snd a) part) attrs parts -> xml_space w ->
  span (fun c => negb (xml_ws c)) (content_of name parts w) = (name, concat parts ++ w).
Proof.
  intros Hn F Hw. apply span_app.
  - eapply Forall_impl; [|exact Hn]. intros c Hc. apply name_char_facts in Hc as (Hc & _). rewrite xml_ws_false by exact Hc. reflexivity.
  - pose proof (parts_heads _ _ _ F Hw) as H. destruct (concat parts ++ w) as [|c r]; [exact I|]. cbn in H |- *.
    apply xml_ws_true in H. rewrite H. reflexivity.
Qed.
Lemma parts_length attrs parts : Forall2 (fun a part => attribute_text (fst a) (snd a) part) attrs parts ->
  length attrs <= length (concat parts).
Proof.
  intros F. induction F as [|a p l ps Ha _ IH]; [cbn; lia|]. cbn [concat length]. rewrite app_length.
  destruct Ha as (w0 & w1 & w2 & q & Hne & _ & _ & _ & _ & _ & ->). destruct w0; [congruence|]. cbn [app length]. lia.
Qed.

Lemma find_here sub x : find sub (sub ++ x) = Some 0.
Proof. destruct (sub ++ x) as [|c r] eqn:E; unfold find; fold find; rewrite <- E, strip_prefix_app; reflexivity. Qed.
Lemma find_end body x : ~ occurs (lit "?>") body -> find (lit "?>") (body ++ lit "?>" ++ x) = Some (length body).
Proof.
  induction body as [|c body IH]; intros H; [exact (find_here (lit "?>") x)|].
  cbn [app find length]. destruct (strip_prefix (lit "?>") (c :: body ++ lit "?>" ++ x)) as [r|] eqn:E.
  - exfalso. apply strip_prefix_some in E. injection E as -> E. destruct body as [|d body].
    + injection E as E. discriminate.
    + injection E as -> E. apply H. exists [], body. reflexivity.
  - rewrite IH; [reflexivity|]. intros (a & b & ->). apply H. exists (c :: a), b. reflexivity.
Qed.

Lemma to_open s x : ~ In "<"%char s -> snd (span (fun c => negb (ceq c "<")) (s ++ "<"%char :: x)) = "<"%char :: x.
Proof.
  intros H. rewrite span_app; [reflexivity| |reflexivity]. apply Forall_forall. intros c Hc. rewrite ceq_no; [reflexivity|].
  intros ->. contradiction.
Qed.

Lemma first_tag_read p : prolog p -> exists n, 7 * n <= length p /\ forall content rest fuel c r,
  n < fuel -> content = c :: r -> name_char c -> clear content -> open_end content ->
  first_tag fuel (p ++ "<"%char :: content ++ ">"%char :: rest) = Some (content, rest).
Proof.
  induction 1 as [s Hs|s body p Hs Hb Ho Hp (n & Hn & IH)].
  - exists 0. split; [lia|]. intros content rest fuel c r Hf -> Hc He Hop. destruct fuel as [|fuel]; [lia|]. cbn [first_tag].
    rewrite to_open by exact Hs. pose proof (name_char_facts _ Hc) as (_ & _ & _ & _ & H1 & H2 & H3 & _).
    cbn [app]. rewrite (ceq_no _ _ H3), (ceq_no _ _ H2), (ceq_no _ _ H1). cbn [orb].
    specialize (He (">"%char :: rest) [] rest eq_refl). rewrite app_nil_r in He. cbn [app] in He.
    unfold text in *. rewrite He, (open_end_not _ Hop). reflexivity.
  - exists (S n). split; [rewrite !app_length; cbn [length list_ascii_of_string]; lia|].
    intros content rest fuel c r Hf Hcon Hc He Hop. destruct fuel as [|fuel]; [lia|]. cbn [first_tag].
    rewrite <- !app_assoc. change (list_ascii_of_string "<?xml") with ("<"%char :: "?"%char :: lit "xml"). cbn [app].
    rewrite to_open by exact Hs. change (ceq "?" "?") with true. cbn beta iota.
    set (x := p ++ "<"%char :: content ++ ">"%char :: rest).
    assert (Hx : find (lit "?>") ((lit "xml" ++ body) ++ lit "?>" ++ x) = Some (length (lit "xml" ++ body))).
    { apply find_end. intros (a & b & E). apply Ho. destruct a as [|a0 [|a1 [|a2 a]]]; try discriminate.
      injection E as _ _ _ E. exists a, b. exact E. }
    replace (lit "xml" ++ body ++ list_ascii_of_string "?>" ++ x) with ((lit "xml" ++ body) ++ lit "?>" ++ x) by (rewrite <- !app_assoc; reflexivity).
    rewrite Hx. rewrite firstn_app, firstn_all, Nat.sub_diag. cbn [firstn]. rewrite app_nil_r.
    replace (is_decl (lit "xml" ++ body)) with true.
    + rewrite (app_assoc (lit "xml" ++ body) (lit "?>") x).
      replace (length (lit "xml" ++ body) + 2) with (length ((lit "xml" ++ body) ++ lit "?>")) by (rewrite (app_length _ (lit "?>")); reflexivity).
      rewrite skipn_app, skipn_all, Nat.sub_diag. cbn [app skipn]. eapply IH; eauto. lia.
    + symmetry. unfold is_decl. rewrite strip_prefix_app. destruct body as [|b body]; [reflexivity|]. cbn in Hb. inversion Hb; subst.
      apply xml_ws_true. assumption.
Qed.

Lemma first_tag_text m : ~ In "<"%char m -> forall fuel x, first_tag fuel (m ++ x) = first_tag fuel x.
Proof.
  intros Hm [|fuel] x; [reflexivity|]. cbn [first_tag].
  replace (snd (span (fun c => negb (ceq c "<")) (m ++ x))) with (snd (span (fun c => negb (ceq c "<")) x)); [reflexivity|].
  induction m as [|c m IH]; [reflexivity|]. cbn [app span]. rewrite ceq_no by (intros ->; apply Hm; left; reflexivity).
  cbn [negb]. rewrite IH by (intros H; apply Hm; right; exact H). destruct (span _ (m ++ x)). reflexivity.
Qed.
Definition without_mark (t : text) : text := match strip_prefix ["239"; "187"; "191"]%char t with Some t => t | None => t end.
Lemma without_mark_first fuel t : first_tag fuel (without_mark t) = first_tag fuel t.
Proof.
  unfold without_mark. destruct (strip_prefix _ t) as [t'|] eqn:E; [|reflexivity]. apply strip_prefix_some in E. subst t.
  symmetry. apply first_tag_text. intros [H|[H|[H|[]]]]; discriminate.
Qed.

Lemma file_tag_at mark p name attrs parts w rest : mark = [] \/ mark = ["239"; "187"; "191"]%char -> prolog p ->
  xml_name name -> Forall (fun a => xml_name (fst a)) attrs ->
  Forall2 (fun a part => attribute_text (fst a) (snd a) part) attrs parts -> xml_space w ->
  let t := mark ++ p ++ (["<"%char] ++ name ++ concat parts ++ w ++ [">"%char]) ++ rest in
  first_tag (S (length (without_mark t))) (without_mark t) = Some (content_of name parts w, rest).
Proof.
  intros Hm Hp Hn Hk F Hw t.
  destruct (first_tag_read p Hp) as (n & Hlen & Hread). destruct Hn as [Hne Hn].
  destruct name as [|c name]; [congruence|]. inversion Hn as [|? ? Hc _]; subst.
  set (content := content_of (c :: name) parts w).
  assert (Et : t = mark ++ p ++ "<"%char :: content ++ ">"%char :: rest).
  { unfold t, content, content_of. rewrite <- !app_assoc. reflexivity. }
  assert (Hcl : clear content).
  { apply clear_app; [apply clear_name; exact Hn|]. apply clear_app; [eapply clear_parts; eassumption|apply clear_space; exact Hw]. }
  assert (Hop : open_end content).
  { apply open_end_app.
    - apply open_end_all. eapply Forall_impl; [|exact Hn]. intros x Hx. apply name_char_facts in Hx. tauto.
    - apply open_end_app; [eapply open_end_parts; exact F|]. apply open_end_all. eapply Forall_impl; [|exact Hw].
      cbn beta. intros x [->|[->|[->| ->]]]; discriminate. }
  assert (Hlt : n < S (length (without_mark t))).
  { assert (length t <= length (without_mark t) + 3).
    { unfold without_mark. destruct (strip_prefix _ t) as [t'|] eqn:E; [|lia]. apply strip_prefix_some in E. rewrite E. cbn [app length]. lia. }
    assert (length t = length mark + (length p + S (S (length content + length rest)))) by
      (rewrite Et, !app_length; cbn [length]; rewrite app_length; cbn [length]; lia).
    assert (1 <= length content) by (unfold content, content_of; cbn [app length]; lia). lia. }
  rewrite without_mark_first. remember (S (length (without_mark t))) as fuel. rewrite Et.
  rewrite first_tag_text by (destruct Hm as [->| ->]; [intros []|intros [H|[H|[H|[]]]]; discriminate]).
  exact (Hread content rest fuel c _ Hlt eq_refl Hc Hcl Hop).
Qed.

Lemma file_tag name attrs rest t : xml_file name attrs rest t -> exists parts w,
  xml_name name /\ Forall (fun a => xml_name (fst a)) attrs /\ NoDup (map fst attrs) /\
  Forall2 (fun a part => attribute_text (fst a) (snd a) part) attrs parts /\ xml_space w /\
  first_tag (S (length (without_mark t))) (without_mark t) = Some (content_of name parts w, rest).
Proof.
  intros (mark & p & tag & Hm & Hp & (parts & w & Hn & Hk & Hd & F & Hw & ->) & ->). exists parts, w.
  split; [exact Hn|]. split; [exact Hk|]. split; [exact Hd|]. split; [exact F|]. split; [exact Hw|].
  apply (file_tag_at mark p name attrs parts w rest); assumption.
Qed.
