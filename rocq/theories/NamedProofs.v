(** Proofs about HepMC files with named weights: single records. *)
From Verif Require Import Base BaseProofs Num ModelEvent ModelText SpecText SpecFormats SpecHepMC TextProofs ReaderProofs ParserProofs
  ModelHepMC HepMCProofs HepMCProofs2 HepMCProofs3 NamesProofs FileProofs RecordProofs SpecNamed.
From Coq Require Import Lia.

Section Named.
Context (N : NumOps) (D : N -> Prop) (double : parser N) (show : N -> text) (sort : sorter) (names : list text).
Hypothesis HT : number_text N D double show.
Hypothesis Hne : names <> [].
Hypothesis Hnd : NoDup names.

Lemma reads_nth ts ws j : HepMCProofs2.reads N double ts ws j -> forall i v, nth_error ws i = Some v -> exists t junk, nth_error ts i = Some t /\ double t = Some (v, junk).
Proof.
  induction 1 as [t w j Hd|t w t2 ts ws j Hd Hr IH]; intros [|i] v E; cbn in E.
  - injection E as <-. exists t, j. auto.
  - destruct i; discriminate.
  - injection E as <-. exists t, []. auto.
  - apply IH in E. exact E.
Qed.
Lemma weight_at_fun record i v w : weight_at double record i v -> weight_at double record i w -> v = w.
Proof.
  assert (G : forall record i v, weight_at double record i v -> exists r1 n rest tok junk, non_weight_entries record = Some r1 /\ u32_entry r1 = Some (n, rest) /\
    nth_error (firstn (N.to_nat n) (words rest)) i = Some tok /\ double tok = Some (v, junk)).
  { clear. intros record i v (n & pre & toks & t & more & Hpre & -> & Hwl & Hm & Hl & tok & junk & Ht & Hd).
    assert (Hh : heads whitespace (t ++ more)) by (eapply word_list_heads; eassumption).
    destruct (head_app pre n (t ++ more) Hpre) as (r1 & _ & H1 & H2). { eapply heads_impl; [|exact Hh]. intros c. apply ws_not_decimal. }
    exists r1, n, (t ++ more), tok, junk. split; [exact H1|]. split; [exact H2|]. split; [|exact Hd].
    rewrite (words_word_list _ _ Hwl more Hm), <- Hl, firstn_pre. exact Ht. }
  intros H1 H2. destruct (G _ _ _ H1) as (r1 & n & rest & tok & junk & A1 & A2 & A3 & A4). destruct (G _ _ _ H2) as (r2 & n2 & rest2 & tok2 & junk2 & B1 & B2 & B3 & B4).
  rewrite A1 in B1. injection B1 as <-. rewrite A2 in B2. injection B2 as <- <-. rewrite A3 in B3. injection B3 as <-. rewrite A4 in B4. congruence.
Qed.
Lemma weight_named_fun record name v w : weight_named double record name v -> weight_named double record name w -> v = w.
Proof.
  intros (l1 & i & N1 & D1 & W1 & I1 & A1) (l2 & j & N2 & D2 & W2 & I2 & A2).
  assert (l1 = l2) as <- by (eapply weight_names_fun; eassumption).
  assert (i = j) as <-. { apply (proj1 (NoDup_nth_error l1) D1); [apply nth_error_Some; congruence|congruence]. }
  eapply weight_at_fun; eassumption.
Qed.

(** a filter over different names *)
Lemma filter_names l n : NoDup l -> length (filter (is_name names) (firstn n l)) = length names -> filter (is_name names) (firstn n l) = filter (is_name names) l.
Proof.
  intros Hl H. rewrite <- (firstn_skipn n l) at 2. rewrite filter_app.
  assert (Hlen : length (filter (is_name names) l) <= length names).
  { apply NoDup_incl_length; [apply NoDup_filter; exact Hl|]. intros x Hx. apply filter_In in Hx as [_ Hx]. apply is_name_In. exact Hx. }
  rewrite <- (firstn_skipn n l), filter_app, app_length, H in Hlen. destruct (filter (is_name names) (skipn n l)); [rewrite app_nil_r; reflexivity|cbn in Hlen; lia].
Qed.

(** what is read from a record with one line of names *)
Lemma named_values record ev l : parse_hepmc double true sort names record = Ok ev -> length (ev_weights ev) = S (length names) ->
  weight_names record l -> l <> [] -> NoDup l ->
  exists w0 ws, ev_weights ev = w0 :: ws /\ weight_at double record 0 w0 /\
    Forall2 (fun name v => exists i, nth_error l i = Some name /\ weight_at double record i v) (filter (is_name names) l) ws.
Proof.
  intros H Hle Hwn Hlne Hndl. unfold parse_hepmc in H. inv_bind H. destruct x as [[v W] rest].
  destruct (extract_multi N D double show HT _ _ _ _ E) as (Hv & nw & pre & toks & p & junk & post & -> & Hpre & Hwl & Hpost & -> & Hj & Htl & Htne & Hreads).
  inv_bind H. destruct x as [u b]. injection H as <-.
  rewrite (parse_lines_skip N double) in E0 by (apply words_no_nl; exact Hj).
  destruct (parse_lines_weights N D double show HT true names (length (junk ++ post)) (length post) W post GeV
    (add_weight true (builder_new true) v) u b) as (idx & HidxW & _ & Hfound & Hwb & _); [rewrite app_length; lia|lia|exact E0|].
  assert (Hbw : length (b_weights b) = S (length names)) by (destruct u; cbn in Hle; lia).
  rewrite Hwb in Hbw. cbn in Hbw. rewrite pick_length in Hbw by exact HidxW. injection Hbw as Hil.
  assert (Hat : forall i x, nth_error W i = Some x -> weight_at double (pre ++ p ++ post) i x).
  { intros i x Ex. destruct (reads_nth _ _ _ Hreads i x Ex) as (t & j & Ht & Hd). exists nw, pre, toks, p, post. repeat (split; [assumption || reflexivity|]). eauto. }
  exists v, (pick N idx W). split; [destruct u; cbn; exact Hwb|]. split; [apply Hat; exact Hv|].
  (* the line of names is in the part after the weights *)
  destruct Hwn as (a & num & nv & t & bb & Erec & Ha & Hn & Hq & Hl).
  assert (Hnl : no_nl (pre ++ p)) by (apply app_no_nl; [eapply before_weights_no_newline; exact Hpre|eapply word_list_no_nl; exact Hwl]).
  assert (Hpo : exists a', post = a' ++ names_mark ++ num ++ t ++ bb /\ ~ occurs names_mark (a' ++ [NL])).
  { rewrite app_assoc in Erec. destruct (app_split_mid _ _ _ _ Erec) as [(s & Hs & Hq')|(s & Hs & Hq')].
    - destruct s as [|c s]; [|exfalso; cbn in Hq'; injection Hq' as <- _; apply Hnl; rewrite Hs; apply in_or_app; right; left; reflexivity].
      exists []. split; [symmetry; exact Hq'|]. intros (x & y & Hxy). destruct x as [|? [|? x]]; discriminate Hxy.
    - exists s. split; [exact Hq'|]. intros (x & y & Hxy). apply Ha. exists ((pre ++ p) ++ x), y. rewrite Hs, <- app_assoc. change newline with NL. rewrite Hxy. symmetry. apply app_assoc_reverse. }
  destruct Hpo as (a' & Hpo & Ha'). destruct (Hfound eq_refl) as (_ & _ & Hf). destruct (Hf a' (num ++ t ++ bb) Hpo Ha') as (i1 & i2 & -> & [[? _]|(_ & nn & r & Hnn & Hnp & Hge)] & Hi2); [contradiction|].
  assert (i2 = []) as ->. { specialize (Hge Hnd). rewrite app_length in Hil. destruct (Hi2 Hnd) as [|H2]; [assumption|]. destruct names; [congruence|]. cbn in *. lia. }
  rewrite app_nil_r in *. apply u32_entry_some in Hnn as (num2 & En & Hn2 & _ & Hr).
  destruct (number_entry_cut _ _ _ _ _ _ Hn Hn2 (quoted_heads _ _ bb Hq Hlne) Hr En) as [-> <-].
  set (n := Nat.min (N.to_nat nn) (length W)) in *. rewrite (name_positions_quoted names l t Hq n 0 bb) in Hnp by (unfold n; lia). injection Hnp as <-.
  rewrite positions_length in Hil. rewrite <- (filter_names l n Hndl Hil). apply positions_pick; [exact Hat| |].
  - cbn. rewrite firstn_length. unfold n. lia.
  - intros i. cbn [Nat.add]. destruct (Nat.lt_ge_cases i n) as [Hi|Hi]; [left|right; apply nth_error_None; rewrite firstn_length; lia].
    clear -Hi. revert i l Hi. induction n as [|n IH]; intros i l Hi; [lia|]. destruct l as [|x l]; [destruct i; reflexivity|]. destruct i as [|i]; [reflexivity|]. apply (IH i l). lia.
Qed.

(** *** Rewriting a record *)
Lemma join_no_nl new : Forall word new -> no_nl (join [SP] new).
Proof.
  induction 1 as [|t new Ht _ IH]; [intros []|]. destruct new as [|t2 new]; [cbn; apply words_no_nl; apply Ht|].
  change (join [SP] (t :: t2 :: new)) with (t ++ [SP] ++ join [SP] (t2 :: new)). apply app_no_nl; [apply words_no_nl; apply Ht|]. apply app_no_nl; [intros [H|[]]; discriminate|exact IH].
Qed.
Lemma join_utf8 new : Forall (fun t => utf8 t = true) new -> utf8 (join [SP] new) = true.
Proof.
  induction 1 as [|t new Ht _ IH]; [reflexivity|]. destruct new as [|t2 new]; [exact Ht|].
  change (join [SP] (t :: t2 :: new)) with (t ++ SP :: join [SP] (t2 :: new)). rewrite utf8_cut by reflexivity. rewrite Ht, utf8_cons by reflexivity. exact IH.
Qed.
Lemma word_list_utf8 l t : word_list l t -> forall r, heads whitespace r -> utf8 (t ++ r) = true -> Forall (fun x => utf8 x = true) l.
Proof.
  induction 1 as [|s e l t Hs He Ht Hl IH]; intros r Hr Hu; [constructor|].
  assert (Hsa : forall s x, Forall blank s -> utf8 (s ++ x) = true -> utf8 x = true).
  { clear. induction 1 as [|c s Hc _ IH]; [auto|]. cbn [app]. rewrite utf8_cons by (apply whitespace_ascii; left; exact Hc). exact IH. }
  rewrite <- !app_assoc in Hu. apply Hsa in Hu; [|apply Hs]. rewrite utf8_heads in Hu by (eapply word_list_heads; eassumption).
  apply andb_true_iff in Hu as [Hu1 Hu2]. constructor; [exact Hu1|]. eapply IH; eassumption.
Qed.

Lemma named_record record ev w0 ws l record' : parse_hepmc double true sort names record = Ok ev -> length (ev_weights ev) = S (length names) ->
  hepmc_update show true names (w0 :: ws) record = Ok record' -> Forall D (w0 :: ws) -> weight_names record l -> l <> [] -> NoDup l ->
  utf8 record = true -> ~ occurs event_mark record ->
  weight_names record' l /\ length ws = length names /\
  (exists w1, parse_hepmc double true sort names record' = Ok (mkEvent (ev_id ev) (w1 :: ws) (ev_out ev)) /\
    ((exists name, nth_error l 0 = Some name /\ In name names) -> nth_error ws 0 = Some w1) /\
    ((forall name, nth_error l 0 = Some name -> ~ In name names) -> w1 = w0)) /\
  (forall i v, i <> 0 -> (forall name, nth_error l i = Some name -> ~ In name names) -> weight_at double record i v -> weight_at double record' i v) /\
  utf8 record' = true /\ ~ occurs event_mark record' /\ begins_with ["E"%char] record' /\ 2 <= length record' /\ (finishes_with [NL] record -> finishes_with [NL] record').
Proof.
  intros Hp Hlen Hup HD Hwn Hlne Hndl Hu Hev.
  assert (Hlw : length ws = length names).
  { unfold hepmc_update in Hup. cbn [weights_is_empty central] in Hup. inv_bind Hup. inv_bind Hup. destruct x0 as [nw rest]. inv_bind Hup.
    unfold update_named_weights in Hup. destruct (length (w0 :: ws) =? length names + 1) eqn:El; [|discriminate]. apply Nat.eqb_eq in El. cbn in El. lia. }
  destruct (hepmc_multi N D double show sort HT names record ev w0 ws Hne Hnd Hp HD Hlw) as [[He _]|(r' & l2 & w1 & G1 & [G2 _] & G3 & G4 & G5 & G6 & G7)]; [cbn; lia|congruence|].
  rewrite Hup in G1. injection G1 as <-.
  destruct G7 as (nw & pre & old & told & more & c & new & tail & Hpre & Erec & Hwl & Hmore & Hm & Erec' & Hc & [rest Htail] & Hnew).
  assert (Hpn : no_nl pre) by (eapply before_weights_no_newline; exact Hpre).
  assert (Hshow : forall w, D w -> utf8 (show w) = true).
  { intros w Hw. destruct (nt_show _ _ _ _ HT w Hw) as [_ Hsn]. rewrite <- (app_nil_r (show w)), utf8_ascii_app; [reflexivity|]. eapply Forall_impl; [|exact Hsn]. exact number_ascii. }
  assert (Hline : no_nl (c :: join [SP] new)).
  { intros [H|H]; [subst c; exact (newline_not_blank Hc)|]. revert H. apply join_no_nl. apply Forall_forall. intros t Ht. destruct (Hnew t Ht) as [Ho|(w & Hw & ->)]; [|apply (show_word HT); exact Hw].
    pose proof (word_list_words _ _ Hwl) as Hf. rewrite Forall_forall in Hf. auto. }
  assert (Hold : no_nl (pre ++ told ++ more)) by (apply app_no_nl; [exact Hpn|]; apply app_no_nl; [eapply word_list_no_nl; exact Hwl|exact Hmore]).
  assert (Hnl' : no_nl (pre ++ c :: join [SP] new)) by (apply app_no_nl; assumption).
  replace (pre ++ told ++ more ++ tail) with ((pre ++ told ++ more) ++ tail) in Erec by (rewrite <- !app_assoc; reflexivity).
  rewrite app_assoc in Erec'.
  assert (Htail_names : forall x y l, no_nl x -> no_nl y -> weight_names (x ++ tail) l -> weight_names (y ++ tail) l).
  { clear -Htail. intros x y l Hx Hy (a & num & v & t & b & E & Ha & Hn & Hq & Hl).
    destruct (app_split_mid _ _ _ _ E) as [(s & Hs & Hq')|(s & Hs & Hq')].
    - destruct s as [|c s]; [|exfalso; cbn in Hq'; injection Hq' as <- _; apply Hx; rewrite Hs; apply in_or_app; right; left; reflexivity].
      exists y, num, v, t, b. split; [cbn [app] in Hq'; rewrite <- Hq'; reflexivity|]. split; [|auto]. intros (p & q & Hpq).
      destruct (app_split_mid _ _ _ _ Hpq) as [(s & Hs2 & Hq2)|(s & Hs2 & Hq2)].
      + destruct s as [|c s]; [discriminate|]. cbn in Hq2. injection Hq2 as <- _. apply Hy. rewrite Hs2. apply in_or_app. right. left. reflexivity.
      + destruct s as [|? [|? s]]; discriminate.
    - exists (y ++ s), num, v, t, b. split; [rewrite Hq', <- !app_assoc; reflexivity|]. split; [|auto]. intros (p & q & Hpq). apply Ha. rewrite <- app_assoc in Hpq.
      destruct (app_split_mid _ _ _ _ Hpq) as [(s2 & Hs2 & Hq2)|(s2 & Hs2 & Hq2)].
      + destruct s2 as [|c s2]; [|exfalso; cbn in Hq2; injection Hq2 as <- _; apply Hy; rewrite Hs2; apply in_or_app; right; left; reflexivity].
        exists x, q. rewrite Hs, <- app_assoc. cbn [app] in Hq2. rewrite Hq2. reflexivity.
      + exists (x ++ s2), q. rewrite Hs, <- app_assoc, Hq2, <- app_assoc. reflexivity. }
  assert (Hwn' : weight_names record' l) by (rewrite Erec'; rewrite Erec in Hwn; eapply Htail_names; [exact Hold|exact Hnl'|exact Hwn]).
  assert (Hl2 : l2 <> [] -> l2 = l) by (intros Hl2; eapply weight_names_fun; eassumption).
  split; [exact Hwn'|]. split; [exact Hlw|]. split; [|split; [|split; [|split; [|split; [|split]]]]].
  - exists w1. split; [exact G4|]. split.
    + intros (name & E0 & Hin).
      assert (El : length (ev_weights (mkEvent (ev_id ev) (w1 :: ws) (ev_out ev))) = S (length names)) by (cbn; lia).
      destruct (named_values record' _ l G4 El Hwn' Hlne Hndl) as (v0 & vs & Ev & Hv0 & Hvs). cbn [ev_weights] in Ev. injection Ev as <- <-.
      destruct l as [|n0 l]; [discriminate|]. injection E0 as ->. cbn [filter] in Hvs. rewrite (proj2 (is_name_In names name) Hin) in Hvs.
      inversion Hvs as [|? v ? vs' (i & Ei & Hi) _]; subst. assert (i = 0) as ->.
      { symmetry. apply (proj1 (NoDup_nth_error (name :: l)) Hndl); [cbn; lia|rewrite Ei; reflexivity]. }
      cbn. f_equal. eapply weight_at_fun; eassumption.
    + intros Hnot. apply G6. intros name E0. destruct l2 as [|n2 l2]; [discriminate|]. rewrite Hl2 in E0 by discriminate. apply Hnot. exact E0.
  - intros i v Hi Hnot (n & p1 & toks & t & m2 & B1 & B2 & B3 & B4 & B5 & tok & junk & B6 & B7).
    destruct G3 as (n3 & p3 & line & line' & rest3 & C1 & C2 & C3 & C4 & C5 & C6 & ws1 & ws2 & tw & more3 & C7 & C8 & C9 & C10 & C11 & C12 & C13).
    exists n3, p3, ws2, line', rest3. split; [exact C1|]. split; [exact C3|]. split; [exact C10|].
    assert (Hh3 : heads whitespace rest3) by (destruct C6 as [x ->]; exact newline_ws). split; [exact Hh3|]. split; [exact C12|].
    exists tok, junk. split; [|exact B7].
    assert (Hnth : nth_error ws1 i = Some tok).
    { subst line. rewrite C2 in B2.
      assert (Hd : forall x, heads whitespace x -> heads (fun c => ~ decimal_digit c) x) by (intros x Hx; eapply heads_impl; [|exact Hx]; intros z; apply ws_not_decimal).
      assert (HA : heads whitespace ((tw ++ more3) ++ rest3)) by (rewrite <- app_assoc; eapply word_list_heads; eassumption).
      assert (HB : heads whitespace (t ++ m2)) by (eapply word_list_heads; eassumption).
      destruct (head_app p3 n3 _ C1 (Hd _ HA)) as (r1 & _ & A1 & A2). destruct (head_app p1 n _ B1 (Hd _ HB)) as (r2 & _ & A3 & A4).
      rewrite B2, A3 in A1. injection A1 as <-. rewrite A4 in A2. injection A2 as <- EE. rewrite <- app_assoc in EE.
      pose proof (words_word_list _ _ B3 m2 B4) as W1. pose proof (words_word_list _ _ C8 (more3 ++ rest3) C9) as W2. rewrite <- EE, W1 in W2.
      assert (toks = ws1) as ->; [|exact B6]. apply (f_equal (firstn (length toks))) in W2. rewrite firstn_pre in W2. rewrite W2, B5, <- C11. apply firstn_pre. }
    rewrite C13; [exact Hnth|exact Hi|]. intros name E. destruct l2 as [|n2 l2]; [destruct i; discriminate|]. rewrite Hl2 in E by discriminate. apply Hnot. exact E.
  - assert (Hht : heads whitespace tail) by (rewrite Htail; exact newline_ws).
    rewrite Erec in Hu. rewrite Erec'. rewrite utf8_heads in Hu |- * by exact Hht. apply andb_true_iff in Hu as [Hu1 Hu2]. rewrite Hu2, andb_true_r.
    assert (Hca : is_ascii c) by (apply whitespace_ascii; left; exact Hc). rewrite utf8_cut by exact Hca. rewrite utf8_cons by exact Hca.
    assert (Hht2 : heads whitespace more) by (destruct more; [exact I|exact Hm]).
    rewrite utf8_heads in Hu1 by (eapply word_list_heads; eassumption). apply andb_true_iff in Hu1 as [-> Hu1]. cbn [andb].
    apply join_utf8. apply Forall_forall. intros t Ht. destruct (Hnew t Ht) as [Ho|(w & Hw & ->)]; [|auto].
    pose proof (word_list_utf8 _ _ Hwl more Hht2 Hu1) as Hf. rewrite Forall_forall in Hf. auto.
  - rewrite Erec'. intros H. apply no_nl_occurs in H; [|exact Hnl']. apply Hev. destruct H as (a & b & Et). rewrite Erec, Et. exists ((pre ++ told ++ more) ++ a), b. rewrite <- !app_assoc. reflexivity.
  - rewrite Erec'. destruct Hpre as (a & nr & nrandom & b & nwt & -> & _). eexists. cbn [app]. reflexivity.
  - rewrite Erec'. destruct Hpre as (a & nr & nrandom & b & nwt & -> & _). rewrite !app_length. cbn. rewrite !app_length. cbn. lia.
  - rewrite Erec, Erec'. intros [x Hx]. destruct tail as [|c0 tail0] eqn:Et; [discriminate|]. rewrite <- Et in *.
    destruct (exists_last (l := tail)) as (y & z & Hz); [congruence|]. rewrite Hz in *. rewrite app_assoc in Hx. apply app_inj_tail in Hx as [_ ->].
    exists ((pre ++ c :: join [SP] new) ++ y). rewrite <- !app_assoc. reflexivity.
Qed.
End Named.
