(** Rewriting the weights of HepMC records. *)
From Verif Require Import Base BaseProofs Num ModelEvent ModelText SpecText SpecFormats SpecHepMC TextProofs ParserProofs ModelHepMC HepMCProofs.
From Coq Require Import Lia.

Lemma skipn_pre {A} (pre t : list A) : skipn (length pre) (pre ++ t) = t.
Proof. rewrite skipn_app, skipn_all, Nat.sub_diag. reflexivity. Qed.
Lemma firstn_pre {A} (pre t : list A) : firstn (length pre) (pre ++ t) = pre.
Proof. rewrite firstn_app, firstn_all, Nat.sub_diag. cbn. apply app_nil_r. Qed.

Lemma firstn1_blanks s : blanks s -> blanks (firstn 1 s).
Proof. intros [Hs Hb]. destruct s; [congruence|]. split; [discriminate|]. inversion Hb; subst. cbn. constructor; auto. Qed.

(** *** Lists of words *)
Lemma word_list_heads l t r : word_list l t -> heads whitespace r -> heads whitespace (t ++ r).
Proof. intros H Hr. inversion H; subst; [exact Hr|]. rewrite <- !app_assoc. eapply heads_impl; [exact blank_ws|]. apply blanks_heads. auto. Qed.
Lemma word_list_no_nl l t : word_list l t -> ~ In NL t.
Proof.
  induction 1 as [|s e l t [_ Hs] [_ He] Ht Hl IH]; [auto|]. rewrite !in_app_iff. rewrite Forall_forall in Hs, He.
  intros [Hin|[Hin|Hin]]; [exact (newline_not_blank (Hs _ Hin))|exact (He _ Hin newline_ws)|exact (IH Hin)].
Qed.
Lemma words_from_word e : Forall (fun c => ~ whitespace c) e -> forall cur t, heads whitespace t -> cur <> [] \/ e <> [] ->
  words_from cur (e ++ t) = (rev cur ++ e) :: words t.
Proof.
  induction 1 as [|c e Hc He IH]; intros cur t Ht Hne.
  - cbn [app]. destruct Hne as [Hne|Hne]; [|congruence]. rewrite app_nil_r. destruct t as [|c t]; cbn.
    + destruct cur; [congruence|reflexivity].
    + cbn in Ht. apply is_ws_whitespace in Ht. unfold words. cbn. rewrite Ht. destruct cur; [congruence|reflexivity].
  - cbn [app words_from]. apply is_ws_false in Hc. rewrite Hc. rewrite IH; [|exact Ht|left; discriminate].
    cbn. rewrite <- app_assoc. reflexivity.
Qed.
Lemma words_blanks s t : Forall blank s -> words (s ++ t) = words t.
Proof.
  induction 1 as [|c s Hc Hs IH]; [reflexivity|]. unfold words in *. cbn. apply blank_ws, is_ws_whitespace in Hc. rewrite Hc. exact IH.
Qed.
Lemma words_word_list l t : word_list l t -> forall r, heads whitespace r -> words (t ++ r) = l ++ words r.
Proof.
  induction 1 as [|s e l t [_ Hs] [Hne He] Ht Hl IH]; intros r Hr; [reflexivity|].
  rewrite <- !app_assoc, words_blanks by exact Hs. unfold words at 1.
  rewrite words_from_word; [|exact He|apply word_list_heads with l; auto|right; exact Hne].
  cbn. f_equal. apply IH. exact Hr.
Qed.
Lemma word_list_words l t : word_list l t -> Forall word l.
Proof. induction 1; constructor; auto. Qed.
Lemma word_list_join l c : Forall word l -> blank c -> l <> [] -> word_list l (c :: join [SP] l).
Proof.
  intros Hl. revert c. induction Hl as [|e l He Hl IH]; intros c Hc Hne; [congruence|].
  assert (Hb : blanks [c]) by (split; [discriminate|constructor; auto]).
  destruct l as [|e2 l].
  - cbn. replace (c :: e) with ([c] ++ e ++ []) by (rewrite app_nil_r; reflexivity). constructor; auto; [exact I|constructor].
  - change (c :: join [SP] (e :: e2 :: l)) with ([c] ++ e ++ (SP :: join [SP] (e2 :: l))).
    constructor; auto; [left; reflexivity|]. apply IH; [left; reflexivity|discriminate].
Qed.

Section Update.
Context (N : NumOps) (D : N -> Prop) (double : parser N) (show : N -> text) (sort : sorter).
Hypothesis HT : number_text N D double show.

(** The numbers a list of words stands for; the last word may go on after the number. *)
Inductive reads : list text -> list N -> text -> Prop :=
| reads_one t w j : double t = Some (w, j) -> reads [t] [w] j
| reads_more t w t2 ts ws j : double t = Some (w, []) -> reads (t2 :: ts) ws j -> reads (t :: t2 :: ts) (w :: ws) j.

Lemma reads_length ts ws j : reads ts ws j -> length ts = length ws.
Proof. induction 1; cbn in *; lia. Qed.

Lemma count_double_some : forall k rest W r, count (double_entry double) (S k) rest = Some (W, r) ->
  exists (toks : list text) p junk post, rest = p ++ post /\ word_list toks p /\ r = junk ++ post /\ heads whitespace post /\
    Forall (fun c => ~ whitespace c) junk /\ length toks = S k /\ reads toks W junk.
Proof.
  induction k as [|k IH]; intros rest W r; cbn [count].
  - destruct (double_entry double rest) as [[w r1]|] eqn:E; [|discriminate]. intros H; injection H as <- <-.
    destruct (double_entry_some HT _ _ _ E) as (s & p & junk & post & -> & -> & Hs & Hp & _ & Hw & Hpost & Hj & Hd).
    exists [p ++ junk], (s ++ (p ++ junk) ++ []), junk, post. rewrite app_nil_r.
    split; [rewrite <- !app_assoc; reflexivity|].
    split; [rewrite <- (app_nil_r (p ++ junk)) at 2; constructor; [exact Hs|exact Hw|exact I|constructor]|].
    repeat split; auto. constructor. exact Hd.
  - destruct (double_entry double rest) as [[w r1]|] eqn:E; [|discriminate].
    change (match double_entry double r1 with Some (a, r0) => match count (double_entry double) k r0 with Some (l, r') => Some (a :: l, r') | None => None end | None => None end)
      with (count (double_entry double) (S k) r1).
    destruct (count (double_entry double) (S k) r1) as [[W' r']|] eqn:C; [|discriminate]. intros H; injection H as <- <-.
    destruct (IH _ _ _ C) as (toks & p2 & junk & post & Hr1 & Hwl & -> & Hpost & Hj & Hl & Hreads).
    destruct (double_entry_some HT _ _ _ E) as (s & p & junk1 & post1 & -> & Hr1' & Hs & Hp & _ & Hw & Hpost1 & Hj1 & Hd).
    (* the rest starts with a blank, so nothing is left of the word *)
    assert (junk1 = []) as ->.
    { destruct junk1 as [|c j]; [reflexivity|]. exfalso. rewrite Hr1' in Hr1. inversion Hwl; subst; [cbn in Hl; discriminate|].
      destruct H as [Hsne Hsb]. destruct s0 as [|c' s0]; [congruence|]. cbn in Hr1. injection Hr1 as -> _.
      inversion Hsb as [|? ? Hb1 _]; subst. inversion Hj1 as [|? ? Hb2 _]; subst. apply Hb2. apply blank_ws. exact Hb1. }
    cbn [app] in Hr1'. rewrite app_nil_r in Hw, Hd. subst post1.
    exists (p :: toks), (s ++ p ++ p2), junk, post.
    split; [cbn [app]; rewrite Hr1, <- !app_assoc; reflexivity|].
    split. { constructor; auto. inversion Hwl; subst; [exact I|]. apply blanks_heads. auto. }
    split; [reflexivity|]. split; [exact Hpost|]. split; [exact Hj|]. split; [cbn; lia|].
    destruct toks as [|t2 toks]; [cbn in Hl; discriminate|]. constructor; auto.
Qed.

Lemma count_double_app toks W junk : reads toks W junk -> forall p post, word_list toks p -> heads whitespace post ->
  count (double_entry double) (length toks) (p ++ post) = Some (W, junk ++ post).
Proof.
  induction 1 as [t w j Hd|t w t2 ts ws j Hd Hr IH]; intros p post Hwl Hpost; inversion Hwl as [|s e l t' Hs He Ht' Hl]; subst.
  - inversion Hl; subst. cbn [length count]. rewrite app_nil_r, <- app_assoc.
    unfold double_entry. rewrite (double_entry_app HT s t w j post); auto.
  - cbn [length count]. rewrite <- !app_assoc. unfold double_entry at 1.
    rewrite (double_entry_app HT s t w [] (t' ++ post)); auto.
    + cbn [app]. change (match double_entry double (t' ++ post) with Some (a, r0) => match count (double_entry double) (length ts) r0 with Some (l, r') => Some (a :: l, r') | None => None end | None => None end)
        with (count (double_entry double) (length (t2 :: ts)) (t' ++ post)).
      rewrite (IH _ _ Hl Hpost). reflexivity.
    + apply word_list_heads with (t2 :: ts); auto.
Qed.

(** Replacing one word by a number *)
Lemma reads_set ts ws j : reads ts ws j -> forall i v ts', D v -> set_nth i (show v) ts = Some ts' ->
  Forall (fun c => ~ whitespace c) j ->
  exists ws' j', set_nth i v ws = Some ws' /\ reads ts' ws' j' /\ Forall (fun c => ~ whitespace c) j'.
Proof.
  induction 1 as [t w j Hd|t w t2 ts ws j Hd Hr IH]; intros i v ts' Hv Hset Hj.
  - destruct i as [|i]; cbn in Hset; [|destruct i; discriminate]. injection Hset as <-.
    exists [v], []. split; [reflexivity|]. split; [constructor; apply (nt_round _ _ _ _ HT); exact Hv|constructor].
  - destruct i as [|i].
    + cbn in Hset. injection Hset as <-. exists (v :: ws), j. split; [reflexivity|]. split; [|exact Hj].
      constructor; [apply (nt_round _ _ _ _ HT); exact Hv|exact Hr].
    + cbn [set_nth] in Hset. destruct (set_nth i (show v) (t2 :: ts)) as [ts1|] eqn:E; [|discriminate]. injection Hset as <-.
      destruct (IH _ _ _ Hv E Hj) as (ws1 & j1 & Hs1 & Hr1 & Hj1).
      exists (w :: ws1), j1. cbn [set_nth]. rewrite Hs1. split; [reflexivity|]. split; [|exact Hj1].
      destruct ts1 as [|u ts1]; [inversion Hr1|]. constructor; auto.
Qed.

Lemma set_nth_other A : forall i (x : A) l l', set_nth i x l = Some l' ->
  length l' = length l /\ nth_error l' i = Some x /\ forall k, k <> i -> nth_error l' k = nth_error l k.
Proof.
  intros i x l; revert i; induction l as [|a l IH]; intros i l' H; destruct i as [|i]; cbn in H; try discriminate.
  - injection H as <-. split; [reflexivity|]. split; [reflexivity|]. intros [|k] Hk; [congruence|reflexivity].
  - destruct (set_nth i x l) as [l1|] eqn:E; [|discriminate]. injection H as <-.
    destruct (IH _ _ E) as (H1 & H2 & H3). split; [cbn; lia|]. split; [exact H2|].
    intros [|k] Hk; [reflexivity|]. cbn. apply H3. lia.
Qed.

Lemma set_entries_spec : forall idx vs ts ws j more, reads ts ws j -> Forall D vs -> Forall (fun c => ~ whitespace c) j ->
  NoDup idx -> (forall i, In i idx -> i < length ts) -> length idx = length vs ->
  exists ts' ws' j', set_entries show ts (idx ++ more) vs = Ok ts' /\ reads ts' ws' j' /\ Forall (fun c => ~ whitespace c) j' /\
    length ts' = length ts /\ pick N idx ws' = vs /\
    (forall k, ~ In k idx -> nth_error ts' k = nth_error ts k /\ nth_error ws' k = nth_error ws k).
Proof.
  induction idx as [|i idx IH]; intros vs ts ws j more Hr Hv Hj Hnd Hin Hl.
  - destruct vs; [|discriminate]. exists ts, ws, j. split; [destruct more; reflexivity|]. repeat split; auto.
  - destruct vs as [|v vs]; [discriminate|]. inversion Hnd; subst. inversion Hv; subst. cbn [app set_entries].
    destruct (set_nth_some (show v) ts (Hin i (or_introl eq_refl))) as [ts1 Hts1]. rewrite Hts1.
    destruct (reads_set _ _ _ Hr _ _ _ H3 Hts1 Hj) as (ws1 & j1 & Hws1 & Hr1 & Hj1).
    destruct (set_nth_other _ _ _ _ _ Hts1) as (Hlen & Hts1i & Hts1k).
    destruct (set_nth_other _ _ _ _ _ Hws1) as (_ & Hws1i & Hws1k).
    destruct (IH vs ts1 ws1 j1 more Hr1 H4 Hj1 H2) as (ts' & ws' & j' & Hset & Hr' & Hj' & Hlen' & Hpick & Hother).
    { intros k Hk. rewrite Hlen. apply Hin. right. exact Hk. }
    { cbn in Hl. lia. }
    exists ts', ws', j'. split; [exact Hset|]. split; [exact Hr'|]. split; [exact Hj'|]. split; [lia|]. split.
    + cbn [pick flat_map]. fold (pick N idx ws'). rewrite Hpick. destruct (Hother i H1) as [_ ->]. rewrite Hws1i. reflexivity.
    + intros k Hk. destruct (Hother k) as [H5 H6]; [intros Hk'; apply Hk; right; exact Hk'|].
      rewrite H5, H6. split; [apply Hts1k|apply Hws1k]; intros ->; apply Hk; left; reflexivity.
Qed.

(** *** Names *)
Lemma string_entry_some t name r : string_entry t = Some (name, r) ->
  exists s, t = s ++ QUOTE :: name ++ QUOTE :: r /\ blanks s /\ ~ In QUOTE name.
Proof.
  unfold string_entry, preceded1. destruct (space1 t) as [t'|] eqn:E; [|discriminate].
  apply space1_some in E as (s & -> & Hs & _). unfold quoted. destruct t' as [|c t']; [discriminate|].
  destruct (ceq c QUOTE) eqn:Ec; [|discriminate]. apply ceq_true in Ec as ->.
  destruct (find [QUOTE] t') as [k|] eqn:F; [|discriminate]. intros H; injection H as <- <-.
  apply find_char_some in F as (a & b & -> & <- & Ha). exists s. rewrite firstn_pre.
  split; [|auto]. do 4 f_equal. clear. induction a as [|x a IH]; [reflexivity|exact IH].
Qed.

(** the positions of the given names *)
Lemma name_positions_spec names : forall n k r ps, name_positions names n k r = Ok ps ->
  exists l t b, r = t ++ b /\ quoted_list l t /\ length l = n /\ NoDup ps /\
    (forall i, In i ps <-> k <= i /\ exists name, nth_error l (i - k) = Some name /\ In name names).
Proof.
  induction n as [|n IH]; intros k r ps; cbn [name_positions].
  - intros H; injection H as <-. exists [], [], r. split; [reflexivity|]. split; [constructor|]. split; [reflexivity|]. split; [constructor|].
    intros i. split; [intros []|]. intros (_ & name & Hn & _). destruct (i - k); discriminate.
  - intros H. inv_bind H. destruct x as [name r1]. inv_bind H.
    apply string_entry_some in E as (s & -> & Hs & Hq).
    destruct (IH _ _ _ E0) as (l & t & b & -> & Hl & Hlen & Hnd & Hin).
    exists (name :: l), (s ++ QUOTE :: name ++ QUOTE :: t), b.
    split; [rewrite <- !app_assoc; cbn; rewrite <- !app_assoc; reflexivity|].
    split; [constructor; auto|]. split; [cbn; lia|].
    assert (Hshift : forall i, S k <= i -> nth_error (name :: l) (i - k) = nth_error l (i - S k)).
    { intros i Hi. replace (i - k) with (S (i - S k)) by lia. reflexivity. }
    destruct (is_name names name) eqn:En; injection H as <-.
    + split.
      * constructor; [|exact Hnd]. intros Hk. apply Hin in Hk. lia.
      * intros i. cbn [In]. rewrite Hin. split.
        -- intros [<-|(Hi & nm & Hnm & Hnin)].
           ++ split; [lia|]. exists name. rewrite Nat.sub_diag. split; [reflexivity|apply is_name_In; exact En].
           ++ split; [lia|]. exists nm. rewrite Hshift by lia. auto.
        -- intros (Hi & nm & Hnm & Hnin). destruct (Nat.eq_dec k i) as [->|Hne]; [left; reflexivity|]. right.
           split; [lia|]. exists nm. rewrite <- Hshift by lia. auto.
    + split; [exact Hnd|]. intros i. rewrite Hin. split.
      * intros (Hi & nm & Hnm & Hnin). split; [lia|]. exists nm. rewrite Hshift by lia. auto.
      * intros (Hi & nm & Hnm & Hnin). destruct (Nat.eq_dec k i) as [->|Hne].
        -- rewrite Nat.sub_diag in Hnm. injection Hnm as ->. apply is_name_In in Hnin. congruence.
        -- split; [lia|]. exists nm. rewrite <- Hshift by lia. auto.
Qed.

(** more names only add positions at the end *)
Lemma name_positions_more names : forall n m k r ps qs, name_positions names n k r = Ok ps -> n <= m ->
  name_positions names m k r = Ok qs -> exists more, qs = ps ++ more.
Proof.
  induction n as [|n IH]; intros m k r ps qs; cbn [name_positions].
  - intros H _ _. injection H as <-. exists qs. reflexivity.
  - intros H Hm H2. destruct m as [|m]; [lia|]. cbn [name_positions] in H2.
    inv_bind H. destruct x as [name r1]. rewrite E in H2. cbn [or_err bind] in H2.
    inv_bind H. inv_bind H2. injection H as <-. injection H2 as <-.
    destruct (IH m _ _ _ _ E0 ltac:(lia) E1) as [more ->]. exists more. destruct (is_name names name); reflexivity.
Qed.
Lemma name_positions_result names : forall n k r, (exists ps, name_positions names n k r = Ok ps) \/
  name_positions names n k r = Err (ParseEntry "weight name entry").
Proof.
  induction n as [|n IH]; intros k r; cbn [name_positions]; [left; eauto|].
  destruct (string_entry r) as [[name r1]|]; cbn [or_err bind]; [|right; reflexivity].
  destruct (IH (S k) r1) as [[ps ->] | ->]; cbn [bind]; [left; eauto|right; reflexivity].
Qed.

(** *** Reading the weights of the E line *)
Lemma extract_single record w W rest : extract_weights double false record = Ok (w, W, rest) ->
  W = [] /\ exists nw pre s tok junk post, record = pre ++ s ++ tok ++ post /\ before_weights nw pre /\ blanks s /\ word tok /\
    heads whitespace post /\ rest = junk ++ post /\ no_nl junk.
Proof.
  unfold extract_weights. destruct (starts_with_E record) eqn:HE; [|discriminate]. cbn [negb]. intros H.
  inv_bind H. rename x into r1. inv_bind H. destruct x as [nw r2]. inv_bind H. destruct x as [v r3]. injection H as <- <- <-.
  split; [reflexivity|]. destruct (head_spec _ _ _ _ HE E E0) as (pre & -> & Hpre).
  destruct (double_entry_some HT _ _ _ E1) as (s & p & junk & post & -> & -> & Hs & Hp & _ & Hw & Hpost & Hj & Hd).
  exists nw, pre, s, (p ++ junk), junk, post. rewrite <- !app_assoc. repeat (split; [auto|]). apply words_no_nl. exact Hj.
Qed.
Lemma extract_single_app nw pre s w post : before_weights nw pre -> blanks s -> D w -> heads whitespace post ->
  extract_weights double false (pre ++ s ++ show w ++ post) = Ok (w, [], post).
Proof.
  intros Hpre Hs Hw Hpost.
  destruct (head_app pre nw (s ++ show w ++ post) Hpre) as (r1 & HE & Hn & Hu).
  { eapply heads_impl; [|apply blanks_heads; exact Hs]. intros c Hc. apply ws_not_decimal, blank_ws, Hc. }
  unfold extract_weights. rewrite HE. cbn [negb]. rewrite Hn. cbn [or_err bind]. rewrite Hu. cbn [or_err bind].
  unfold double_entry. rewrite (double_entry_show HT s w post Hs Hw Hpost). reflexivity.
Qed.

Lemma update_start pre nw rest names mw ws w : before_weights nw pre -> heads blank rest -> rest <> [] ->
  weights_is_empty ws = false -> central ws = Some w ->
  hepmc_update show mw names ws (pre ++ rest) =
    bind (update_central_weight show (pre ++ rest) (length pre) w) (fun record =>
      if mw then update_named_weights show record (length pre) (N.to_nat nw) names ws else Ok record).
Proof.
  intros Hpre Hr Hne He Hc.
  destruct (head_app pre nw rest Hpre) as (r1 & HE & Hn & Hu).
  { eapply heads_impl; [|exact Hr]. intros c Hc'. apply ws_not_decimal, blank_ws, Hc'. }
  unfold hepmc_update. rewrite He. rewrite Hn. cbn [or_err bind]. rewrite Hu. cbn [or_err bind]. rewrite Hc.
  replace (length (pre ++ rest) - length rest) with (length pre) by (rewrite app_length; lia). reflexivity.
Qed.

(** One weight *)
Lemma hepmc_single names record ev w :
  parse_hepmc double false sort names record = Ok ev -> D w ->
  exists nw pre s tok post, record = pre ++ s ++ tok ++ post /\ before_weights nw pre /\ blanks s /\ word tok /\ heads whitespace post /\
    let record' := pre ++ firstn 1 s ++ show w ++ post in
    hepmc_update show false names [w] record = Ok record' /\
    parse_hepmc double false sort names record' = Ok (mkEvent (ev_id ev) [w] (ev_out ev)).
Proof.
  intros H Hw. unfold parse_hepmc in H. inv_bind H. destruct x as [[v W] rest].
  destruct (extract_single _ _ _ _ E) as (-> & nw & pre & s & tok & junk & post & Hrec & Hpre & Hs & Ht & Hpost & -> & Hj).
  exists nw, pre, s, tok, post. repeat (split; [assumption|]). cbn zeta. split.
  - rewrite Hrec. rewrite (update_start pre nw (s ++ tok ++ post) names false [w] w); auto.
    + rewrite (update_first N show _ pre s tok post w eq_refl Hs Ht Hpost). reflexivity.
    + apply blanks_heads; exact Hs.
    + destruct Hs as [Hs _]. destruct s; [congruence|discriminate].
  - inv_bind H. destruct x as [u b]. injection H as <-.
    rewrite (parse_lines_skip N double) in E0 by exact Hj.
    destruct (parse_lines_weights N D double show HT false names (length (junk ++ post)) (length post) [] post GeV
      (add_weight false (builder_new (N:=N) false) v) u b) as (idx & _ & Hidx & _ & Hwb & Hall); [rewrite app_length; lia|lia|exact E0|].
    unfold parse_hepmc. rewrite (extract_single_app nw pre (firstn 1 s) w post Hpre (firstn1_blanks _ Hs) Hw Hpost). cbn [bind].
    specialize (Hall [] [w] eq_refl). rewrite (Hidx eq_refl) in Hall. cbn [pick flat_map] in Hall. rewrite app_nil_r in Hall.
    change (with_weights N [w] (add_weight false (builder_new (N:=N) false) v)) with (add_weight false (builder_new (N:=N) false) w) in Hall.
    rewrite Hall. cbn [bind]. f_equal. destruct u; reflexivity.
Qed.

(** *** Several weights *)
Lemma extract_multi record w W rest : extract_weights double true record = Ok (w, W, rest) ->
  nth_error W 0 = Some w /\ exists nw pre (toks : list text) p junk post, record = pre ++ p ++ post /\ before_weights nw pre /\ word_list toks p /\
    heads whitespace post /\ rest = junk ++ post /\ Forall (fun c => ~ whitespace c) junk /\ length toks = N.to_nat nw /\ toks <> [] /\ reads toks W junk.
Proof.
  unfold extract_weights. destruct (starts_with_E record) eqn:HE; [|discriminate]. cbn [negb]. intros H.
  inv_bind H. rename x into r1. inv_bind H. destruct x as [nw r2]. inv_bind H. destruct x as [V r3].
  destruct V as [|v V']; [discriminate|]. injection H as <- <- <-.
  split; [reflexivity|]. destruct (head_spec _ _ _ _ HE E E0) as (pre & -> & Hpre).
  destruct (N.to_nat nw) as [|k] eqn:Ek; [cbn in E1; discriminate|].
  destruct (count_double_some _ _ _ _ E1) as (toks & p & junk & post & -> & Hwl & -> & Hpost & Hj & Hl & Hr).
  exists nw, pre, toks, p, junk, post. rewrite Ek. do 7 (split; [auto|]). split; [|exact Hr]. destruct toks; [discriminate|discriminate].
Qed.
Lemma extract_multi_app nw pre (toks : list text) W w p junk post : before_weights nw pre -> word_list toks p -> heads whitespace post ->
  reads toks W junk -> length toks = N.to_nat nw -> nth_error W 0 = Some w ->
  extract_weights double true (pre ++ p ++ post) = Ok (w, W, junk ++ post).
Proof.
  intros Hpre Hwl Hpost Hr Hl Hw.
  assert (Hhd : heads blank (p ++ post)).
  { inversion Hwl; subst; [inversion Hr|]. rewrite <- !app_assoc. apply blanks_heads. auto. }
  destruct (head_app pre nw (p ++ post) Hpre) as (r1 & HE & Hn & Hu).
  { eapply heads_impl; [|exact Hhd]. intros c Hc. apply ws_not_decimal, blank_ws, Hc. }
  unfold extract_weights. rewrite HE. cbn [negb]. rewrite Hn. cbn [or_err bind]. rewrite Hu. cbn [or_err bind].
  pose proof (count_double_app _ _ _ Hr _ _ Hwl Hpost) as Hc. rewrite Hl in Hc. rewrite Hc. cbn [or_err bind]. destruct W as [|w' W]; [discriminate|].
  injection Hw as ->. reflexivity.
Qed.

Lemma find_skip junk : no_nl junk -> forall c t, find [NL; c] (junk ++ t) = option_map (fun n => length junk + n) (find [NL; c] t).
Proof.
  intros H c t. induction junk as [|x junk IH]; [cbn; destruct (find [NL; c] t); reflexivity|].
  change ((x :: junk) ++ t) with (x :: (junk ++ t)). cbn [find]. cbn [strip_prefix].
  destruct (ceq NL x) eqn:E; [apply ceq_true in E as <-; exfalso; apply H; left; reflexivity|].
  rewrite IH by (intros Hin; apply H; right; exact Hin). destruct (find [NL; c] t); reflexivity.
Qed.

(** the first occurrence, found by [find] *)
Lemma find_first t n : find names_mark t = Some n ->
  exists a rest, t = a ++ names_mark ++ rest /\ length a = n /\ ~ occurs names_mark (a ++ [NL]).
Proof.
  intros H. apply find_some in H as (a & rest & Ht & Hl & Hmin). exists a, rest. split; [exact Ht|]. split; [exact Hl|].
  intros (p & q & Hpq).
  destruct (app_split_mid _ _ _ _ Hpq) as [(s & Hs & Hs2)|(s & Hs & Hs2)].
  - assert (Hss : s <> []) by (intros ->; cbn in Hs2; unfold names_mark in Hs2; discriminate).
    apply (Hmin p s Hs Hss). destruct s as [|c s]; [congruence|]. cbn in Hs2. injection Hs2 as <- Hs2.
    destruct s as [|c s]; cbn in Hs2; [discriminate|]. injection Hs2 as <- Hs2. exists (s ++ names_mark ++ rest). reflexivity.
  - destruct s as [|c s]; cbn in Hs2; [discriminate|]. injection Hs2 as <- Hs2. destruct s; discriminate.
Qed.

Lemma name_positions_zero names n k r ps : name_positions names n k r = Ok ps -> In k ps -> exists ps', ps = k :: ps'.
Proof.
  destruct n as [|n]; cbn [name_positions]; intros H Hk; [injection H as <-; destruct Hk|].
  inv_bind H. destruct x as [name r1]. inv_bind H. injection H as <-. destruct (is_name names name); [eauto|].
  destruct (name_positions_spec _ _ _ _ _ E0) as (? & ? & ? & ? & ? & ? & ? & Hin). apply Hin in Hk. lia.
Qed.

Lemma reads_tail_change t ts w W j w0 : reads (t :: ts) (w :: W) j -> D w0 -> Forall (fun c => ~ whitespace c) j ->
  exists j', reads (show w0 :: ts) (w0 :: W) j' /\ Forall (fun c => ~ whitespace c) j'.
Proof.
  intros H Hw Hj. destruct (reads_set _ _ _ H 0 w0 _ Hw eq_refl Hj) as (ws' & j' & Hs & Hr & Hj'). cbn in Hs. injection Hs as <-. eauto.
Qed.

Lemma pick_length idx (V : list N) : (forall i, In i idx -> i < length V) -> length (pick N idx V) = length idx.
Proof.
  induction idx as [|i idx IH]; intros H; [reflexivity|]. cbn [pick flat_map]. fold (pick N idx V). rewrite app_length, IH by (intros; apply H; right; auto).
  destruct (nth_error V i) eqn:En; [reflexivity|]. apply nth_error_None in En. specialize (H i (or_introl eq_refl)). lia.
Qed.

Lemma hepmc_multi names record ev w0 ws :
  names <> [] -> NoDup names -> parse_hepmc double true sort names record = Ok ev ->
  Forall D (w0 :: ws) -> length ws = length names -> length (ev_weights ev) = length (w0 :: ws) ->
  (hepmc_update show true names (w0 :: ws) record = Err (ParseEntry "weight name entry") /\
   exists a num v r, record = a ++ names_mark ++ num ++ r /\ ~ occurs names_mark (a ++ [newline]) /\ number_entry v num /\
     heads (fun c => ~ decimal_digit c) r /\ name_positions names (N.to_nat v) 0 r = Err (ParseEntry "weight name entry")) \/
  exists record' l w1, hepmc_update show true names (w0 :: ws) record = Ok record' /\
    (weight_names record l /\ l <> []) /\ only_weights_changed names l record record' /\
    parse_hepmc double true sort names record' = Ok (mkEvent (ev_id ev) (w1 :: ws) (ev_out ev)) /\
    (forall name, nth_error l 0 = Some name -> In name names -> nth_error ws 0 = Some w1) /\
    ((forall name, nth_error l 0 = Some name -> ~ In name names) -> w1 = w0) /\
    exists nw pre old told more c new tail, before_weights nw pre /\ record = pre ++ told ++ more ++ tail /\ word_list old told /\ no_nl more /\ heads whitespace (more ++ tail) /\
      record' = pre ++ (c :: join [SP] new) ++ tail /\ blank c /\ begins_with [NL] tail /\ (forall t, In t new -> In t old \/ exists w, D w /\ t = show w).
Proof.
  intros Hne Hnd H HD Hlw Hle. unfold parse_hepmc in H. inv_bind H. destruct x as [[v W] rest].
  destruct (extract_multi _ _ _ _ E) as (Hv & nw & pre & toks & p & junk & post & -> & Hpre & Hwl & Hpost & -> & Hj & Htl & Htne & Hreads).
  inv_bind H. destruct x as [u b]. injection H as <-.
  (* the line ends *)
  pose proof (parse_lines_weights N D double show HT true names _ _ _ _ _ _ _ _ (le_n _) (le_n _) E0)
    as (idx & HidxW & _ & Hfound & Hwb & _).
  assert (Hbw : length (b_weights b) = S (length names)) by (destruct u; cbn in Hle; lia).
  rewrite Hwb in Hbw. cbn in Hbw.
  rewrite pick_length in Hbw by exact HidxW. clear Hfound.
  assert (Hnl : In NL post).
  { destruct (in_dec Ascii.ascii_dec NL post) as [Hin|Hin]; [exact Hin|]. exfalso.
    rewrite <- (app_nil_r (junk ++ post)), (parse_lines_skip N double) in E0.
    - assert (Hb : b = add_weight true (builder_new true) v) by (destruct (length ((junk ++ post) ++ [])); cbn in E0; injection E0 as <- <-; reflexivity).
      rewrite Hb in Hwb. cbn in Hwb. apply (f_equal (@length _)) in Hwb. cbn in Hwb. rewrite pick_length in Hwb by exact HidxW. destruct names; [congruence|cbn in Hbw; lia].
    - apply app_no_nl; [apply words_no_nl; exact Hj|exact Hin]. }
  destruct (find [NL] post) as [n|] eqn:F; [|apply find_char_none in F; contradiction].
  apply find_char_some in F as (more & rest & -> & _ & Hmore). set (tail := NL :: rest) in *.
  rewrite app_assoc, (parse_lines_skip N double) in E0 by (apply app_no_nl; [apply words_no_nl; exact Hj|exact Hmore]).
  destruct (parse_lines_weights N D double show HT true names (length ((junk ++ more) ++ tail)) (length tail) W tail GeV
    (add_weight true (builder_new true) v) u b) as (idx' & HidxW' & _ & Hfound & Hwb' & Hall); [rewrite !app_length; lia|lia|exact E0|].
  specialize (Hfound eq_refl).
  clear idx HidxW Hwb Hbw. rename idx' into idx. rename HidxW' into HidxW.
  assert (Hbw : length (b_weights b) = S (length names)) by (destruct u; cbn in Hle; lia).
  rewrite Hwb' in Hbw. cbn in Hbw.
  pose proof (pick_length idx W HidxW) as Hpick.
  rewrite Hpick in Hbw. injection Hbw as Hidxlen.
  destruct Hfound as (Hno & _ & Hfirst).
  destruct (find names_mark tail) as [m|] eqn:Fm.
  2:{ apply find_none in Fm. rewrite (Hno Fm) in Hidxlen. destruct names; [congruence|discriminate]. }
  pose proof Fm as Fm'. apply find_first in Fm as (a & rest2 & Htail & Hla & Ha).
  destruct (Hfirst a rest2 Htail Ha) as (idx1 & idx2 & Hidx & [[? _]|(_ & nn & r & Hnn & Hnp & Hge)] & Hidx2); [contradiction|].
  assert (idx2 = []) as ->.
  { specialize (Hge Hnd). rewrite Hidx, app_length in Hidxlen. destruct (Hidx2 Hnd) as [|Hl2]; [assumption|].
    destruct names; [congruence|]. cbn in *. lia. }
  rewrite app_nil_r in Hidx. subst idx1.
  (* the update *)
  destruct toks as [|tok0 toks]; [congruence|]. inversion Hwl as [|s e l0 t0 Hs Hword Ht0 Hwl0]; subst e l0 p.
  assert (Hheads : heads whitespace (t0 ++ more ++ tail)) by (apply word_list_heads with toks; auto).
  pose proof (Forall_inv HD) as HD0. pose proof (Forall_inv_tail HD) as HDs.
  rewrite (update_start pre nw ((s ++ tok0 ++ t0) ++ more ++ tail) names true (w0 :: ws) w0); auto.
  2:{ rewrite <- !app_assoc. apply blanks_heads; exact Hs. }
  2:{ destruct Hs as [Hs _]. destruct s; [congruence|discriminate]. }
  rewrite (update_first N show (pre ++ (s ++ tok0 ++ t0) ++ more ++ tail) pre s tok0 (t0 ++ more ++ tail) w0); auto.
  2:{ rewrite <- !app_assoc. reflexivity. }
  cbn [bind]. unfold update_named_weights.
  replace (length (w0 :: ws) =? length names + 1) with true by (symmetry; apply Nat.eqb_eq; cbn; lia). cbn [negb].
  destruct names as [|nm names'] eqn:Enames; [congruence|]. rewrite <- Enames in *.
  assert (Hfind : forall x, no_nl x -> find names_mark (x ++ tail) = Some (length x + m)).
  { intros x Hx. unfold names_mark. change newline with NL. rewrite find_skip by exact Hx. fold names_mark.
    change [NL; "N"%char] with names_mark. rewrite Fm'. reflexivity. }
  set (line1 := firstn 1 s ++ show w0 ++ t0 ++ more).
  replace (pre ++ firstn 1 s ++ show w0 ++ t0 ++ more ++ tail) with ((pre ++ line1) ++ tail) by (unfold line1; rewrite <- !app_assoc; reflexivity).
  assert (Hs1 : blanks (firstn 1 s)) by (apply firstn1_blanks; exact Hs).
  assert (Hshow : word (show w0)) by (apply (show_word HT); exact HD0).
  assert (Hline1 : no_nl line1).
  { unfold line1. apply app_no_nl; [apply blanks_no_nl; exact Hs1|]. apply app_no_nl; [apply words_no_nl; apply Hshow|].
    apply app_no_nl; [|exact Hmore]. eapply word_list_no_nl. exact Hwl0. }
  assert (Hpreline : no_nl (pre ++ line1)) by (apply app_no_nl; [eapply before_weights_no_newline; exact Hpre|exact Hline1]).
  change [NL; "N"%char] with names_mark. rewrite (Hfind _ Hpreline). cbn [or_err bind].
  replace (skipn (length (pre ++ line1) + m + 2) ((pre ++ line1) ++ tail)) with rest2.
  2:{ rewrite Htail. replace (length (pre ++ line1) + m + 2) with (length ((pre ++ line1) ++ a ++ names_mark)) by (rewrite !app_length; cbn; lia).
      rewrite (app_assoc a), (app_assoc (pre ++ line1) (a ++ names_mark)). symmetry. apply skipn_pre. }
  rewrite Hnn. cbn [or_err bind].
  assert (Hfirst_mark : ~ occurs names_mark ((pre ++ (s ++ tok0 ++ t0) ++ more ++ a) ++ [newline])).
  { intros (p1 & q1 & Hp1). apply Ha.
    assert (Hx : no_nl (pre ++ (s ++ tok0 ++ t0) ++ more)).
    { apply app_no_nl; [eapply before_weights_no_newline; exact Hpre|]. apply app_no_nl; [|exact Hmore].
      eapply word_list_no_nl. exact Hwl. }
    replace ((pre ++ (s ++ tok0 ++ t0) ++ more ++ a) ++ [newline]) with ((pre ++ (s ++ tok0 ++ t0) ++ more) ++ a ++ [newline]) in Hp1 by (rewrite <- !app_assoc; reflexivity).
    destruct (app_split_mid _ _ _ _ Hp1) as [(s3 & Hs3 & Hs4)|(s3 & Hs3 & Hs4)].
    + destruct s3 as [|c3 s3]; [exists [], q1; exact (eq_sym Hs4)|]. cbn in Hs4. injection Hs4 as <- _. exfalso. apply Hx. rewrite Hs3.
      apply in_or_app. right. left. reflexivity.
    + exists s3, q1. exact Hs4. }
  destruct (name_positions_result names (N.to_nat nn) 0 r) as [[qs Hqs]|Hqs]; rewrite Hqs; cbn [bind].
  2:{ left. split; [reflexivity|]. apply u32_entry_some in Hnn as (num & -> & Hnum & _ & Hh).
    exists (pre ++ (s ++ tok0 ++ t0) ++ more ++ a), num, nn, r. split; [rewrite Htail, <- !app_assoc; reflexivity|]. split; [|auto]. apply Hfirst_mark. }
  right.
  destruct (name_positions_more _ _ (N.to_nat nn) _ _ _ _ Hnp ltac:(lia) Hqs) as [extra ->].
  destruct (name_positions_spec _ _ _ _ _ Hnp) as (? & ? & ? & _ & _ & _ & Hndi & _).
  destruct (name_positions_spec _ _ _ _ _ Hqs) as (l & tl & bl & Hr & Hql & Hll & _ & Hin).
  (* the entries *)
  destruct W as [|v' W]; [discriminate|]. injection Hv as ->.
  destruct (reads_tail_change _ _ _ _ _ w0 Hreads HD0 Hj) as (j1 & Hreads1 & Hj1).
  assert (Hwl1 : word_list (show w0 :: toks) (firstn 1 s ++ show w0 ++ t0)) by (constructor; auto).
  assert (Hwords : firstn (N.to_nat nw) (words (skipn (length pre) ((pre ++ line1) ++ tail))) = show w0 :: toks).
  { rewrite <- app_assoc, skipn_pre. unfold line1.
    replace ((firstn 1 s ++ show w0 ++ t0 ++ more) ++ tail) with ((firstn 1 s ++ show w0 ++ t0) ++ more ++ tail) by (rewrite <- !app_assoc; reflexivity).
    rewrite (words_word_list _ _ Hwl1) by exact Hpost. rewrite <- Htl.
    replace (length (tok0 :: toks)) with (length (show w0 :: toks)) by reflexivity. apply firstn_pre. }
  rewrite Hwords. cbn [skipn].
  destruct (set_entries_spec idx ws (show w0 :: toks) (w0 :: W) j1 extra) as (ts' & W' & j' & Hset & Hr' & Hj' & Hlt & Hpk & Hoth); auto.
  { intros i Hi. apply HidxW in Hi. apply reads_length in Hreads. cbn [length] in *. lia. }
  { lia. }
  rewrite Hset. cbn [bind].
  assert (Hgen : forall Q : text -> Prop, (forall w, D w -> Q (show w)) -> Forall Q toks -> Forall Q ts').
  { intros Q Hq Hold.
    assert (Hsh : forall vs ts ts2 more2, set_entries show ts (idx ++ more2) vs = Ok ts2 -> length idx = length vs -> Forall D vs -> Forall Q ts -> Forall Q ts2).
    { clear - Hq. induction idx as [|i idx IH]; intros vs ts ts2 more2 H Hl Hv Hts.
      - destruct vs; [|discriminate]. cbn in H. destruct more2; injection H as <-; exact Hts.
      - destruct vs as [|v vs]; [discriminate|]. cbn in H. destruct (set_nth i (show v) ts) as [ts1|] eqn:E; [|discriminate].
        inversion Hv; subst. eapply IH; [exact H|cbn in Hl; lia|assumption|].
        apply Forall_forall. intros y Hy. apply In_nth_error in Hy as [k' Hk']. destruct (set_nth_other _ _ _ _ _ E) as (_ & Hi & Ho).
        destruct (Nat.eq_dec k' i) as [->|Hne]; [pose proof (eq_trans (eq_sym Hk') Hi) as Hk2; injection Hk2 as ->; apply Hq; assumption|].
        pose proof (eq_trans (eq_sym (Ho _ Hne)) Hk') as Hk2. rewrite Forall_forall in Hts. apply Hts. eapply nth_error_In; exact Hk2. }
    apply (Hsh _ _ _ _ Hset ltac:(lia) HDs). constructor; [apply Hq; exact HD0|exact Hold]. }
  assert (Hts' : Forall word ts').
  { apply Hgen; [intros w Hw; apply (show_word HT); exact Hw|]. eapply word_list_words. exact Hwl0. }
  assert (Hts'ne : ts' <> []) by (intros ->; cbn in Hlt; discriminate).
  (* the blank in front is kept *)
  destruct (firstn 1 s) as [|c0 [|c1 s1]] eqn:Es1.
  { destruct Hs1; congruence. }
  2:{ exfalso. assert (Hl1 : length (firstn 1 s) <= 1) by (rewrite firstn_length; lia). rewrite Es1 in Hl1. cbn in Hl1. lia. }
  assert (Hc0 : blank c0) by (destruct Hs1 as [_ Hs1]; inversion Hs1; assumption).
  set (line2 := show w0 ++ t0 ++ more).
  assert (Eline1 : line1 = c0 :: line2) by (unfold line1; reflexivity).
  assert (Hline2 : no_nl line2) by (intros Hi; apply Hline1; rewrite Eline1; right; exact Hi).
  replace (skipn (length pre + 1) ((pre ++ line1) ++ tail)) with (line2 ++ tail).
  2:{ rewrite Eline1. replace ((pre ++ c0 :: line2) ++ tail) with ((pre ++ [c0]) ++ line2 ++ tail) by (rewrite <- !app_assoc; reflexivity).
      replace (length pre + 1) with (length (pre ++ [c0])) by (rewrite app_length; reflexivity). symmetry. apply skipn_pre. }
  unfold tail at 1. rewrite (find_char NL line2 rest Hline2).
  unfold replace_range.
  replace (length pre + 1 + length line2 <? length pre + 1) with false by (symmetry; apply Nat.ltb_ge; lia).
  replace (length ((pre ++ line1) ++ tail) <? length pre + 1 + length line2) with false.
  2:{ symmetry. apply Nat.ltb_ge. rewrite Eline1, !app_length. cbn. lia. }
  cbn [orb].
  replace (firstn (length pre + 1) ((pre ++ line1) ++ tail)) with (pre ++ [c0]).
  2:{ rewrite Eline1. replace ((pre ++ c0 :: line2) ++ tail) with ((pre ++ [c0]) ++ line2 ++ tail) by (rewrite <- !app_assoc; reflexivity).
      replace (length pre + 1) with (length (pre ++ [c0])) by (rewrite app_length; reflexivity). symmetry. apply firstn_pre. }
  replace (skipn (length pre + 1 + length line2) ((pre ++ line1) ++ tail)) with tail.
  2:{ rewrite Eline1. replace (length pre + 1 + length line2) with (length (pre ++ c0 :: line2)) by (rewrite app_length; cbn; lia). symmetry. apply skipn_pre. }
  set (line' := c0 :: join [SP] ts').
  assert (Hwl' : word_list ts' line') by (apply word_list_join; auto).
  replace ((pre ++ [c0]) ++ join [SP] ts' ++ tail) with (pre ++ line' ++ tail) by (unfold line'; rewrite <- !app_assoc; reflexivity).
  assert (Htailh : heads whitespace tail) by exact newline_ws.
  destruct (nth_error W' 0) as [w1|] eqn:Ew1.
  2:{ exfalso. apply nth_error_None in Ew1. apply reads_length in Hr'. cbn in Hlt. lia. }
  exists (pre ++ line' ++ tail), l, w1. split; [reflexivity|].
  assert (Hlt2 : length ts' = N.to_nat nw) by (rewrite Hlt; exact Htl).
  split; [|split; [|split; [|split; [|split]]]].
  - (* weight_names *)
    split.
    + apply u32_entry_some in Hnn as (num & -> & Hnum & Hnn32 & Hh). subst r.
    exists (pre ++ (s ++ tok0 ++ t0) ++ more ++ a), num, nn, tl, bl. split; [rewrite Htail, <- !app_assoc; reflexivity|].
    split; [exact Hfirst_mark|auto].
    + destruct idx as [|i0 idx]; [destruct names; [congruence|discriminate]|]. destruct (proj1 (Hin i0) (or_introl eq_refl)) as (_ & name & Hnm & _). intros ->. destruct (i0 - 0); discriminate.
  - (* only_weights_changed *)
    exists nw, pre, ((s ++ tok0 ++ t0) ++ more), line', tail. split; [exact Hpre|].
    split; [rewrite <- !app_assoc; reflexivity|]. split; [reflexivity|].
    split; [apply app_no_nl; [eapply word_list_no_nl; exact Hwl|exact Hmore]|].
    split; [eapply word_list_no_nl; exact Hwl'|]. split; [exists rest; reflexivity|].
    exists (tok0 :: toks), ts', (s ++ tok0 ++ t0), more. split; [reflexivity|]. split; [exact Hwl|]. split; [exact Hpost|].
    split; [exact Hwl'|]. split; [exact Htl|]. split; [exact Hlt2|].
    intros i Hi Hname. destruct (Hoth i) as [Hts _].
    { intros Hii. assert (Hiq : In i (idx ++ extra)) by (apply in_or_app; left; exact Hii).
      apply Hin in Hiq as (_ & name & Hnm & Hnin). rewrite Nat.sub_0_r in Hnm. exact (Hname _ Hnm Hnin). }
    refine (eq_trans Hts _). destruct i; [congruence|reflexivity].
  - (* read back *)
    unfold parse_hepmc. rewrite (extract_multi_app nw pre ts' W' w1 line' j' tail Hpre Hwl' Htailh Hr' Hlt2 Ew1). cbn [bind].
    rewrite (parse_lines_skip N double) by (apply words_no_nl; exact Hj').
    destruct (parse_lines_weights N D double show HT true names (length ((junk ++ more) ++ tail)) (length (j' ++ tail)) (v :: W) tail GeV
      (add_weight true (builder_new true) v) u b) as (idx3 & Hidx3W & _ & Hfound3 & Hwb3 & Hall3); [rewrite !app_length; lia|rewrite app_length; lia|exact E0|].
    assert (HW' : length W' = length (v :: W)) by (apply reads_length in Hr', Hreads; cbn [length] in *; lia).
    specialize (Hall W' [w1] HW'). specialize (Hall3 W' [w1] HW').
    change (with_weights N [w1] (add_weight true (builder_new true) v)) with (add_weight true (builder_new (N:=N) true) w1) in Hall3.
    rewrite Hall3. cbn [bind].
    assert (Hfuel : pick N idx3 W' = ws).
    { (* same positions as with the other fuel *)
      destruct (Hfound3 eq_refl) as (_ & _ & Hf3). destruct (Hf3 a rest2 Htail Ha) as (i1 & i2 & Hi12 & [[? _]|(_ & nn' & r' & Hnn' & Hnp' & _)] & Hi2); [contradiction|].
      rewrite Hnn in Hnn'. injection Hnn' as <- <-. rewrite Hnp in Hnp'. injection Hnp' as <-.
      assert (Hl3 : length idx3 = length idx).
      { assert (Hp : length (pick N idx3 (v :: W)) = length (pick N idx (v :: W))).
        { assert (Hb : length (b_weights b) = length (b_weights b)) by reflexivity. rewrite Hwb' in Hb at 1. rewrite Hwb3 in Hb. rewrite !app_length in Hb. lia. }
        rewrite Hpick, pick_length in Hp by exact Hidx3W. exact Hp. }
      rewrite Hi12, app_length in Hl3. destruct i2; [|cbn in Hl3; lia]. rewrite app_nil_r in Hi12. subst idx3. exact Hpk. }
    rewrite Hfuel. f_equal. destruct u; reflexivity.
  - intros name Hn0 Hnin. assert (H0 : In 0 (idx ++ extra)) by (apply Hin; split; [lia|]; exists name; rewrite Nat.sub_0_r; auto).
    destruct (name_positions_zero _ _ _ _ _ Hqs H0) as [ps' Hps'].
    destruct idx as [|i0 idx]; [destruct names; [congruence|discriminate]|]. cbn in Hps'. injection Hps' as -> _.
    rewrite <- Hpk. cbn [pick flat_map]. rewrite Ew1. reflexivity.
  - intros Hnot. destruct (Hoth 0) as [_ Hw].
    { intros Hi0. assert (H0 : In 0 (idx ++ extra)) by (apply in_or_app; left; exact Hi0). apply Hin in H0 as (_ & name & Hn & Hnin). exact (Hnot _ Hn Hnin). }
    rewrite Ew1 in Hw. cbn in Hw. injection Hw as ->. reflexivity.
  - exists nw, pre, (tok0 :: toks), (s ++ tok0 ++ t0), more, c0, ts', tail. split; [exact Hpre|].
    split; [reflexivity|]. split; [exact Hwl|]. split; [exact Hmore|]. split; [exact Hpost|]. split; [reflexivity|]. split; [exact Hc0|].
    split; [exists rest; reflexivity|]. apply Forall_forall. apply Hgen; [eauto|]. apply Forall_forall. intros t Ht. left. right. exact Ht.
Qed.
End Update.
