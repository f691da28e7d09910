(** Rewriting the weights of LHEF and STRIPPER XML records; rewinding. *)
From Verif Require Import Base BaseProofs Num ModelEvent ModelText SpecText SpecFormats SpecHepMC TextProofs ReaderProofs ParserProofs
  ModelHepMC HepMCProofs HepMCProofs2 ModelLHEF ModelStripper.
From Coq Require Import Lia.

Lemma lines_skip junk : ~ In NL junk -> forall t, skipn 1 (lines (junk ++ t)) = skipn 1 (lines t).
Proof.
  intros Hj t. unfold lines.
  assert (H : forall t c1 c2, skipn 1 (lines_from c1 t) = skipn 1 (lines_from c2 t)).
  { clear. induction t as [|a t IH]; intros c1 c2; cbn [lines_from].
    - destruct c1, c2; reflexivity.
    - destruct (ceq a NL); [reflexivity|apply IH]. }
  assert (H2 : forall cur, skipn 1 (lines_from cur (junk ++ t)) = skipn 1 (lines_from cur t)).
  { induction junk as [|a junk IH]; intros cur; [reflexivity|]. cbn [app lines_from].
    destruct (ceq a NL) eqn:E; [apply ceq_true in E as ->; exfalso; apply Hj; left; reflexivity|].
    rewrite IH by (intros Hin; apply Hj; right; exact Hin). apply H. }
  apply H2.
Qed.

Lemma is_white_iff c : is_white c = true <-> (whitespace c \/ c = "011"%char).
Proof. unfold is_white. rewrite orb_true_iff, is_ws_whitespace, ceq_true. reflexivity. Qed.
Lemma is_white_false c : is_white c = false <-> ~ (whitespace c \/ c = "011"%char).
Proof. rewrite <- is_white_iff. destruct (is_white c); split; congruence. Qed.

Ltac use_some := repeat match goal with H : ?o = Some _ |- context[or_err ?o _] => rewrite H; cbn [or_err bind] end.

Section LHEF.
Context (N : NumOps) (D : N -> Prop) (double : parser N) (show : N -> text) (sort : sorter).
Hypothesis HT : number_text N D double show.

(** reading from the weight on *)
Definition lhef_tail (mw : bool) (nparticles : nat) (rest : text) : res (Event N) :=
  bind (or_err (double_entry double rest) (ParseEntry "XWGTUP entry")) (fun '(wt, rest) =>
  bind (lhef_particles double (firstn nparticles (skipn 1 (lines rest))) (add_weight mw (builder_new mw) wt)) (fun event =>
  Ok (build sort event))).

Lemma lhef_head mw record ev : parse_lhef double mw sort record = Ok ev ->
  exists p n rest, record = p ++ rest /\ lhef_before_weight p /\ 2 <= n /\ lhef_tail mw n rest = Ok ev /\
    forall x, heads whitespace x -> parse_lhef double mw sort (p ++ x) = lhef_tail mw n x /\ lhef_non_weight_entries (p ++ x) = Some (Some x).
Proof.
  unfold parse_lhef. destruct (span is_white record) as [lead t] eqn:Esp. unfold trim_start. rewrite Esp. cbn [snd].
  apply span_spec in Esp as (-> & Hlead & Ht). intros H. inv_bind H. rename x into line_end.
  apply find_char_some in E as (line & r & -> & <- & Hline).
  inv_bind H. destruct x as [nup rest]. destruct (N.to_nat nup <? 2) eqn:E2; [discriminate|]. apply Nat.ltb_ge in E2.
  inv_bind H. destruct x as [idrup rest2].
  assert (Hr : skipn (1 + length line) (line ++ NL :: r) = r).
  { cbn. clear. induction line as [|c line IH]; [reflexivity|exact IH]. }
  rewrite Hr in E.
  unfold u32_entry0, preceded0, space0 in E. destruct (span is_space r) as [s0 r'] eqn:Es0. cbn [snd] in E.
  apply span_spec in Es0 as (-> & Hs0 & Hr').
  assert (Hds : exists ds, r' = ds ++ rest /\ ds <> [] /\ Forall decimal_digit ds /\ decimal_value ds = nup /\ (nup < 2 ^ 32)%N).
  { unfold u32 in E. destruct r' as [|c r']; [discriminate|]. destruct (digit c) as [d|] eqn:Ed; [|discriminate].
    destruct (digits_from_some _ _ _ _ E) as (ds & Hd1 & Hd2 & Hd3 & Hd4 & Hd5); [reflexivity|].
    exists ds. split; [exact Hd1|]. split; [|auto]. intros ->. cbn in Hd1. subst rest. cbn in Hd5. apply Hd5.
    revert Ed. unfold digit, decimal_digit. destruct ((48 <=? N_of_ascii c)%N && (N_of_ascii c <=? 57)%N) eqn:Eb; [|discriminate].
    apply andb_true_iff in Eb as [Eb1 Eb2]. apply N.leb_le in Eb1, Eb2. auto. }
  destruct Hds as (ds & -> & Hdne & Hds & Hdv & Hdb).
  apply any_entry_some in E0 as (s1 & -> & Hs1 & Hid & Hrest2).
  assert (Hwd : word ds) by (split; [exact Hdne|]; eapply Forall_impl; [|exact Hds]; intros c; apply decimal_not_ws).
  assert (Hline' : line <> [] /\ heads (fun c => is_white c = false) line).
  { destruct line as [|c line]; [exfalso; cbn in Ht; discriminate|]. split; [discriminate|exact Ht]. }
  destruct Hline' as [Hlne Hlh].
  exists (lead ++ line ++ NL :: s0 ++ ds ++ s1 ++ idrup), (N.to_nat nup), rest2.
  split; [repeat (rewrite <- ?app_assoc; cbn [app]); reflexivity|].
  split.
  { exists lead, line, s0, ds, s1, idrup. split; [reflexivity|].
    split; [eapply Forall_impl; [|exact Hlead]; intros c; apply is_white_iff|].
    split; [exact Hlne|]. split; [exact Hline|].
    split; [eapply heads_impl; [|exact Hlh]; intros c; apply is_white_false|].
    split; [eapply Forall_impl; [|exact Hs0]; intros c; apply is_space_blank|]. auto. }
  split; [exact E2|]. split; [exact H|].
  intros x Hx.
  assert (Ha : (lead ++ line ++ NL :: s0 ++ ds ++ s1 ++ idrup) ++ x = lead ++ line ++ NL :: s0 ++ ds ++ s1 ++ idrup ++ x)
    by (repeat (rewrite <- ?app_assoc; cbn [app]); reflexivity).
  rewrite Ha.
  assert (Hsp : span is_white (lead ++ line ++ NL :: s0 ++ ds ++ s1 ++ idrup ++ x) = (lead, line ++ NL :: s0 ++ ds ++ s1 ++ idrup ++ x)).
  { apply span_app; [exact Hlead|]. apply heads_app; auto. }
  assert (Hdh : heads (fun c => is_space c = false) (ds ++ s1 ++ idrup ++ x)).
  { destruct ds as [|c ds]; [congruence|]. inversion Hds; subst. cbn. apply is_space_false. intros Hb. eapply decimal_not_ws; [eassumption|left; exact Hb]. }
  assert (Hsp0 : span is_space (s0 ++ ds ++ s1 ++ idrup ++ x) = (s0, ds ++ s1 ++ idrup ++ x)) by (apply span_app; auto).
  assert (Hsk : skipn (1 + length line) (line ++ NL :: s0 ++ ds ++ s1 ++ idrup ++ x) = s0 ++ ds ++ s1 ++ idrup ++ x).
  { cbn. clear. induction line as [|c line IH]; [reflexivity|exact IH]. }
  assert (Hany : any_entry (s1 ++ idrup ++ x) = Some (idrup, x)) by (apply any_entry_app; auto).
  split.
  - rewrite Hsp. cbn [snd]. rewrite (find_char NL line _ Hline). cbn [or_err bind]. rewrite Hsk.
    unfold u32_entry0, preceded0, space0. rewrite Hsp0. cbn [snd].
    assert (Hu : u32 (ds ++ s1 ++ idrup ++ x) = Some (nup, s1 ++ idrup ++ x)).
    { unfold u32. destruct ds as [|c ds]; [congruence|]. cbn [app]. inversion Hds; subst. rewrite (digit_of _ H2).
      change (c :: ds ++ s1 ++ idrup ++ x) with ((c :: ds) ++ s1 ++ idrup ++ x). apply digits_from_app; auto.
      eapply heads_impl; [|apply blanks_heads; exact Hs1]. intros a Ha'. apply ws_not_decimal, blank_ws, Ha'. }
    rewrite Hu. cbn [or_err bind]. replace (N.to_nat nup <? 2) with false by (symmetry; apply Nat.ltb_ge; exact E2).
    rewrite Hany. reflexivity.
  - unfold lhef_non_weight_entries, trim_start. rewrite Hsp. cbn [snd]. rewrite (find_char NL line _ Hline).
    rewrite (Nat.add_comm (length line) 1), Hsk. unfold preceded0, space0. rewrite Hsp0. cbn [snd].
    rewrite (non_space_app ds); [|exact Hwd|eapply heads_impl; [exact blank_ws|apply blanks_heads; exact Hs1]].
    rewrite Hany. reflexivity.
Qed.

Lemma lhef_rewrite_one mw record ev w : parse_lhef double mw sort record = Ok ev -> D w ->
  exists record', lhef_update show mw [w] record = Ok record' /\ entry_replaced lhef_before_weight (show w) record record' /\
    parse_lhef double mw sort record' = Ok (mkEvent (ev_id ev) [w] (ev_out ev)).
Proof.
  intros H Hw. destruct (lhef_head _ _ _ H) as (p & n & rest & -> & Hp & Hn & Htl & Hall).
  unfold lhef_tail in Htl. inv_bind Htl. destruct x as [old r1].
  destruct (double_entry_some HT _ _ _ E) as (s & q & junk & post & -> & -> & Hs & Hq & _ & Hwd & Hpost & Hj & Hd).
  destruct s as [|c s]; [destruct Hs; congruence|].
  assert (Hc : blank c /\ Forall blank s) by (destruct Hs as [_ Hs]; inversion Hs; auto).
  assert (Hx : heads whitespace ((c :: s) ++ q ++ junk ++ post)) by (cbn; apply blank_ws, Hc).
  exists (p ++ c :: show w ++ post). split; [|split].
  - destruct (Hall _ Hx) as [_ Hnw]. unfold lhef_update. cbn [weights_is_empty]. rewrite Hnw. cbn [or_err bind central].
    replace (length (p ++ (c :: s) ++ q ++ junk ++ post) - length ((c :: s) ++ q ++ junk ++ post)) with (length p) by (rewrite app_length; lia).
    replace (p ++ (c :: s) ++ q ++ junk ++ post) with (p ++ (c :: s) ++ (q ++ junk) ++ post) by (rewrite <- !app_assoc; reflexivity).
    change (central [w]) with (Some w). cbv iota. rewrite (update_first N show _ p (c :: s) (q ++ junk) post w eq_refl Hs Hwd Hpost). cbn. destruct mw; reflexivity.
  - exists p, c, s, (q ++ junk), post. rewrite <- !app_assoc. cbn [app]. split; [reflexivity|]. split; [reflexivity|]. tauto.
  - destruct (Hall (c :: show w ++ post)) as [-> _]; [cbn; apply blank_ws, Hc|]. unfold lhef_tail.
    replace (double_entry double (c :: show w ++ post)) with (Some (w, post)).
    2:{ symmetry. change (c :: show w ++ post) with ([c] ++ show w ++ post). unfold double_entry. apply (double_entry_show HT); auto.
        split; [discriminate|]. constructor; [apply Hc|constructor]. }
    cbn [or_err bind]. inv_bind Htl. injection Htl as <-.
    rewrite lines_skip in E0 by (apply words_no_nl; exact Hj).
    assert (Hcomm : forall ls b b', lhef_particles double ls b = Ok b' ->
      forall ws, lhef_particles double ls (mkBuilder ws (b_out b)) = Ok (mkBuilder ws (b_out b')) /\ b_weights b' = b_weights b).
    { clear. induction ls as [|l ls IH]; intros b b'; cbn [lhef_particles].
      - intros H; injection H as <-. intros ws. split; reflexivity.
      - intros H ws. inv_bind H. rename x into b1.
        assert (H1 : lhef_particle double l (mkBuilder ws (b_out b)) = Ok (mkBuilder ws (b_out b1)) /\ b_weights b1 = b_weights b).
        { unfold lhef_particle in *. inv_bind E. destruct x as [id r]. use_some. inv_bind E. destruct x as [st r2]. use_some.
          destruct (negb (st =? 1)%Z); [injection E as <-; split; reflexivity|].
          inv_bind E. use_some. inv_bind E. destruct x0 as [px r3]. use_some. inv_bind E. destruct x0 as [py r4]. use_some.
          inv_bind E. destruct x0 as [pz r5]. use_some. inv_bind E. destruct x0 as [e r6]. use_some.
          injection E as <-. split; reflexivity. }
        destruct H1 as [H1 H1w]. rewrite H1. cbn [bind]. destruct (IH _ _ H ws) as [H2 H2w]. split; [exact H2|congruence]. }
    destruct (Hcomm _ _ _ E0 [w]) as [H2 _].
    change (mkBuilder [w] (b_out (add_weight mw (builder_new mw) old))) with (mkBuilder [w] (b_out (builder_new (N:=N) mw))) in H2.
    replace (add_weight mw (builder_new mw) w) with (mkBuilder [w] (b_out (builder_new (N:=N) mw))) by (destruct mw; reflexivity).
    rewrite H2. reflexivity.
Qed.
End LHEF.

(** *** STRIPPER XML *)
Section Stripper.
Context (N : NumOps) (D : N -> Prop) (double : parser N) (show : N -> text) (sort : sorter).
Hypothesis HT : number_text N D double show.

Lemma quote_not_number : ~ number_char QUOTE.
Proof.
  unfold number_char, decimal_digit. cbn. intros H.
  repeat match goal with H : _ \/ _ |- _ => destruct H as [H|H] end; try lia; discriminate.
Qed.

Lemma weight_start_app s rest : blanks s -> weight_start (subevent_start ++ s ++ lit "w=" ++ QUOTE :: rest) = Some rest.
Proof.
  intros Hs. unfold weight_start. change subevent_start with subevent_mark. rewrite strip_prefix_app.
  rewrite space1_app; [|exact Hs|cbn; intros [H|H]; discriminate].
  change (lit "w=" ++ QUOTE :: rest) with ((lit "w=" ++ [QUOTE]) ++ rest). apply strip_prefix_app.
Qed.

Lemma stripper_start record pre num post : stripper_weight record pre num post ->
  weight_start record = Some (num ++ post) /\ heads (fun c => ~ number_char c) post.
Proof.
  intros (-> & (s & -> & Hs) & _ & [b ->]). split; [|exact quote_not_number].
  pose proof (weight_start_app s (num ++ ["034"%char] ++ b) Hs) as H. rewrite <- H. f_equal.
  rewrite <- !app_assoc. reflexivity.
Qed.

Lemma stripper_replace record pre num post v f : stripper_weight record pre num post -> double num = Some (v, []) ->
  replace_weight double show record f = Ok (pre ++ show (f v) ++ post).
Proof.
  intros H Hd. destruct (stripper_start _ _ _ _ H) as [Hws Hp]. destruct H as (-> & _ & _ & _).
  unfold replace_weight. rewrite Hws. cbn [or_err bind]. rewrite (nt_local _ _ _ _ HT) by exact Hp. rewrite Hd. cbn [or_err bind app].
  unfold replace_range.
  replace (length (pre ++ num ++ post) - length (num ++ post)) with (length pre) by (rewrite !app_length; lia).
  replace (length (pre ++ num ++ post) - length post) with (length (pre ++ num)) by (rewrite !app_length; lia).
  replace (length (pre ++ num) <? length pre) with false by (symmetry; apply Nat.ltb_ge; rewrite app_length; lia).
  replace (length (pre ++ num ++ post) <? length (pre ++ num)) with false by (symmetry; apply Nat.ltb_ge; rewrite !app_length; lia).
  cbn [orb]. rewrite firstn_pre, (app_assoc pre num post), skipn_pre. reflexivity.
Qed.

Lemma stripper_weight_other record pre num post w : stripper_weight record pre num post -> D w ->
  stripper_weight (pre ++ show w ++ post) pre (show w) post.
Proof.
  intros (_ & Hpre & _ & Hpost) Hw. split; [reflexivity|]. split; [exact Hpre|]. split; [|exact Hpost].
  apply (nt_show _ _ _ _ HT w Hw).
Qed.

Lemma stripper_particles_weights : forall fuel rest b b', stripper_particles double fuel rest b = Ok b' ->
  forall ws, stripper_particles double fuel rest (mkBuilder ws (b_out b)) = Ok (mkBuilder ws (b_out b')).
Proof.
  induction fuel as [|fuel IH]; intros rest b b'; cbn [stripper_particles].
  - destruct (particle_start rest) as [r|]; [discriminate|]. intros H; injection H as <-. reflexivity.
  - destruct (particle_start rest) as [r|]; [|intros H; injection H as <-; reflexivity].
    intros H ws. inv_bind H. destruct x as [st r1]. use_some. destruct (negb (st =? 0)%Z).
    + inv_bind H. use_some. apply IH. exact H.
    + inv_bind H. destruct x as [pid r2]. use_some. inv_bind H. rename x into r3. use_some.
      destruct r3 as [|c r3]; [discriminate|]. destruct (128 <=? N_of_ascii c)%N; [discriminate|].
      inv_bind H. destruct x as [p r4]. use_some. inv_bind H. use_some. exact (IH _ _ _ H ws).
Qed.

Lemma stripper_read_back mw pre num num2 post v v2 ev :
  (exists s, pre = subevent_start ++ s ++ lit "w=" ++ [QUOTE] /\ blanks s) -> begins_with [QUOTE] post ->
  double num = Some (v, []) -> double num2 = Some (v2, []) ->
  parse_stripper_xml double mw sort (pre ++ num ++ post) = Ok ev ->
  parse_stripper_xml double mw sort (pre ++ num2 ++ post) = Ok (mkEvent (ev_id ev) [v2] (ev_out ev)).
Proof.
  intros (s & -> & Hs) [b Hb] Hd Hd2 H.
  assert (Hp : heads (fun c => ~ number_char c) post) by (subst post; exact quote_not_number).
  assert (Ha : forall x, (subevent_start ++ s ++ lit "w=" ++ [QUOTE]) ++ x = subevent_start ++ s ++ lit "w=" ++ QUOTE :: x)
    by (intros x; rewrite <- !app_assoc; reflexivity).
  unfold parse_stripper_xml in *. rewrite Ha in *. rewrite weight_start_app in * by exact Hs. cbn [or_err bind] in *.
  rewrite (nt_local _ _ _ _ HT) in * by exact Hp. rewrite Hd in H. rewrite Hd2. cbn [or_err bind app] in *.
  inv_bind H. use_some. inv_bind H. injection H as <-.
  apply (fun H => stripper_particles_weights _ _ _ _ H [v2]) in E0.
  replace (add_weight mw (builder_new mw) v2) with (mkBuilder [v2] (b_out (builder_new (N:=N) mw))) by (destruct mw; reflexivity).
  change (b_out (add_weight mw (builder_new mw) v)) with (b_out (builder_new (N:=N) mw)) in E0.
  rewrite E0. reflexivity.
Qed.
End Stripper.

(** *** Rewinding *)
Lemma hepmc_next_file r x r' : hepmc_next r = Some (x, r') -> rd_file r' = rd_file r /\ rd_header r' = rd_header r.
Proof. unfold hepmc_next. destruct (hepmc_read_raw (rd_source r)); intros H; inversion H; subst; auto. Qed.
Lemma lhef_next_file r x r' : lhef_next r = Some (x, r') -> rd_file r' = rd_file r /\ rd_header r' = rd_header r.
Proof. unfold lhef_next. destruct (lhef_read_raw (rd_source r)); intros H; inversion H; subst; auto. Qed.
Lemma stripper_read_file checks r record r' : stripper_read_raw checks r = SRecord record r' ->
  sr_file r' = sr_file r /\ sr_header r' = sr_header r.
Proof.
  unfold stripper_read_raw. intros H.
  repeat match type of H with
  | context[match ?x with _ => _ end] => destruct x; try discriminate
  end; injection H as <- <-; auto.
Qed.
