(** HepMC with the "multiweight" feature but without weight names. *)
From Verif Require Import Base BaseProofs Num ModelEvent ModelText SpecText SpecFormats SpecHepMC TextProofs ReaderProofs ParserProofs
  ModelHepMC HepMCProofs HepMCProofs2.
From Coq Require Import Lia.

Section Unnamed.
Context (N : NumOps) (D : N -> Prop) (double : parser N) (show : N -> text) (sort : sorter).
Hypothesis HT : number_text N D double show.

Lemma particle_b_weights record b b' r : parse_particle_line double record b = Ok (b', r) -> b_weights b' = b_weights b.
Proof.
  unfold parse_particle_line. intros H.
  repeat match type of H with
  | bind ?x _ = Ok _ => apply bind_ok in H as ([? ?] & _ & H)
  | bind ?x _ = Ok _ => apply bind_ok in H as (? & _ & H)
  | (if ?c then _ else _) = Ok _ => destruct c
  | Ok _ = Ok _ => injection H as <- <-
  end; reflexivity.
Qed.

Lemma parse_lines_unnamed mw : forall f W record u b u' b', parse_lines double f mw [] W record u b = Ok (u', b') -> b_weights b' = b_weights b.
Proof.
  induction f as [|f IH]; intros W record u b u' b'; cbn [parse_lines]; destruct (find [NL] record) as [pos|]; try discriminate;
    try (intros H; injection H as _ <-; reflexivity).
  destruct (skipn (pos + 1) record) as [|c t]; [apply IH|].
  destruct (_ || _) eqn:E1; [apply IH|]. destruct (ceq c "N"); [cbn [parse_weight_names_line bind]; apply IH|].
  destruct (ceq c "P").
  { intros H. inv_bind H. destruct x as [b1 r1]. apply IH in H. apply particle_b_weights in E. congruence. }
  destruct (ceq c "U"). { intros H. inv_bind H. destruct x as [u1 r1]. apply IH in H. exact H. }
  destruct (forallb is_white (c :: t)); [apply IH|discriminate].
Qed.

Lemma hepmc_unnamed record ev w :
  parse_hepmc double true sort [] record = Ok ev -> D w ->
  exists record', hepmc_update show true [] [w] record = Ok record' /\
    entry_replaced (fun p => exists n, before_weights n p) (show w) record record' /\
    parse_hepmc double true sort [] record' = Ok (mkEvent (ev_id ev) [w] (ev_out ev)).
Proof.
  intros H Hw. unfold parse_hepmc in H. inv_bind H. destruct x as [[v W] rest].
  destruct (extract_multi N D double show HT _ _ _ _ E) as (Hv & nw & pre & toks & p & junk & post & -> & Hpre & Hwl & Hpost & -> & Hj & Htl & Htne & Hreads).
  destruct toks as [|tok0 toks]; [congruence|]. inversion Hwl as [|s e l0 t0 Hs Hword Ht0 Hwl0]; subst e l0 p.
  assert (Hheads : heads whitespace (t0 ++ post)) by (apply word_list_heads with toks; auto).
  destruct s as [|c s]; [destruct Hs; congruence|].
  assert (Hc : blank c /\ Forall blank s) by (destruct Hs as [_ Hs']; inversion Hs'; auto).
  exists (pre ++ c :: show w ++ t0 ++ post). split; [|split].
  - rewrite (update_start N show pre nw (((c :: s) ++ tok0 ++ t0) ++ post) [] true [w] w); auto.
    2:{ cbn. apply Hc. }
    2:{ discriminate. }
    rewrite (update_first N show _ pre (c :: s) tok0 (t0 ++ post) w); auto.
    rewrite <- !app_assoc. reflexivity.
  - exists pre, c, s, tok0, (t0 ++ post). cbn [app]; rewrite <- ?app_assoc; cbn [app]; rewrite <- ?app_assoc. split; [reflexivity|]. split; [reflexivity|].
    split; [eauto|]. tauto.
  - destruct W as [|v' W]; [discriminate|]. injection Hv as ->.
    destruct (reads_tail_change N D double show HT _ _ _ _ _ w Hreads Hw Hj) as (j1 & Hreads1 & Hj1).
    assert (Hwl1 : word_list (show w :: toks) ([c] ++ show w ++ t0)).
    { constructor; auto; [split; [discriminate|]; constructor; [apply Hc|constructor]|apply (show_word HT); exact Hw]. }
    replace (pre ++ c :: show w ++ t0 ++ post) with (pre ++ ([c] ++ show w ++ t0) ++ post) by (cbn; rewrite <- !app_assoc; reflexivity).
    unfold parse_hepmc. rewrite (extract_multi_app N D double show HT nw pre (show w :: toks) (w :: W) w ([c] ++ show w ++ t0) j1 post Hpre Hwl1 Hpost Hreads1 Htl eq_refl).
    cbn [bind]. inv_bind H. destruct x as [u b]. injection H as <-.
    rewrite (parse_lines_skip N double) in E0 by (apply words_no_nl; exact Hj).
    destruct (parse_lines_weights N D double show HT true [] (length (junk ++ post)) (length (j1 ++ post)) (v :: W) post GeV
      (add_weight true (builder_new true) v) u b) as (idx & HidxW & _ & _ & Hwb & Hall); [rewrite app_length; lia|rewrite app_length; lia|exact E0|].
    rewrite (parse_lines_skip N double) by (apply words_no_nl; exact Hj1).
    apply parse_lines_unnamed in E0. rewrite E0 in Hwb. apply (f_equal (@length _)) in Hwb. rewrite app_length, pick_length in Hwb by exact HidxW.
    destruct idx; [|cbn in Hwb; lia]. specialize (Hall (w :: W) [w] eq_refl).
    change (with_weights N [w] (add_weight true (builder_new true) v)) with (add_weight true (builder_new (N:=N) true) w) in Hall.
    rewrite Hall. cbn [bind]. f_equal. destruct u; reflexivity.
Qed.
End Unnamed.
