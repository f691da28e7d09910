(** Which records make the parsers panic. *)
From Verif Require Import Base BaseProofs Num ModelEvent ModelText SpecText SpecFormats SpecHepMC SpecPanic TextProofs ParserProofs
  ModelHepMC HepMCProofs ModelLHEF ModelStripper FormatProofs.
From Coq Require Import Lia.

Lemma bind_panic {A B} (r : res A) (f : A -> res B) : bind r f = Panic -> r = Panic \/ exists a, r = Ok a /\ f a = Panic.
Proof. destruct r; cbn; [eauto|discriminate|auto]. Qed.
Lemma or_err_panic {A} (o : option A) e : or_err o e <> Panic.
Proof. destruct o; discriminate. Qed.
Ltac bp H :=
  let a := fresh "x" in let E := fresh "E" in
  apply bind_panic in H; destruct H as [H|(a & E & H)];
  [try (exfalso; exact (or_err_panic _ _ H))|try (apply or_err_ok in E)].

Section P.
Context (N : NumOps) (D : N -> Prop) (double : parser N) (show : N -> text) (sort : sorter).
Hypothesis HT : number_text N D double show.

(** *** HepMC *)
Lemma names_loop_np names : forall ws record seen b, @names_loop N names ws record seen b <> Panic.
Proof.
  induction ws as [|w ws IH]; intros record seen b; cbn [names_loop]; [discriminate|]. intros H. bp H. destruct x as [n t].
  destruct (is_name names n); exact (IH _ _ _ H).
Qed.
Lemma names_np names record ws b : @parse_weight_names_line N names record ws b <> Panic.
Proof.
  unfold parse_weight_names_line. destruct names; [discriminate|]. intros H. bp H. destruct x as [nn t1].
  bp H; [exact (names_loop_np _ _ _ _ _ H)|]. destruct x as [[t2 seen] b2]. destruct (List.find _ _); discriminate.
Qed.
Lemma units_np record : parse_units_line record <> Panic.
Proof.
  unfold parse_units_line. intros H. bp H. destruct x as [u t]. destruct (list_eq_dec _ _ _); [discriminate|].
  destruct (list_eq_dec _ _ _); discriminate.
Qed.
Lemma particle_np record b : parse_particle_line double record b <> Panic.
Proof.
  unfold parse_particle_line. intros H.
  bp H. destruct x as [? t1]. bp H. destruct x as [? t2]. bp H. destruct x as [? t3]. bp H. destruct x as [? t4].
  bp H. destruct x as [? t5]. bp H. destruct x as [? t6]. bp H. destruct x as [? t7]. bp H. destruct x as [? t8].
  destruct (negb _); discriminate.
Qed.
Lemma lines_np mw names ws : forall fuel record u b, length record <= fuel -> parse_lines double fuel mw names ws record u b <> Panic.
Proof.
  induction fuel as [|fuel IH]; intros record u b Hl; cbn [parse_lines].
  - destruct record as [|c record]; [discriminate|cbn in Hl; lia].
  - destruct (find [NL] record) as [pos|] eqn:E; [|discriminate]. apply find_char_some in E as (a & r & -> & <- & _).
    assert (Hs : skipn (length a + 1) (a ++ NL :: r) = r).
    { rewrite Nat.add_comm. cbn. clear. induction a as [|c a IHa]; [reflexivity|exact IHa]. }
    rewrite Hs. rewrite app_length in Hl. cbn [length] in Hl. assert (Hr : length r <= fuel) by lia. clear Hs Hl.
    destruct r as [|c r]; [apply IH; exact Hr|].
    assert (Hsub : forall r', (exists q, c :: r = q ++ r' /\ no_nl q) -> length r' <= fuel).
    { intros r' (q & Hq & _). rewrite Hq, app_length in Hr. lia. }
    destruct (_ || _) eqn:E1; [apply IH; exact Hr|].
    destruct (ceq c "N") eqn:E2.
    { intros H. bp H; [exact (names_np _ _ _ _ H)|]. destruct x as [b' r']. apply names_len in E. revert H. apply IH. lia. }
    destruct (ceq c "P") eqn:E3.
    { intros H. bp H; [exact (particle_np _ _ H)|]. destruct x as [b' r']. apply (particle_eats N D double show HT) in E.
      - revert H. apply IH, Hsub, E.
      - apply ceq_true in E3 as ->. discriminate. }
    destruct (ceq c "U") eqn:E4.
    { intros H. bp H; [exact (units_np _ H)|]. destruct x as [u' r']. apply (units_eats) in E.
      - revert H. apply IH, Hsub, E.
      - apply ceq_true in E4 as ->. discriminate. }
    destruct (forallb is_white (c :: r)); [apply IH; exact Hr|discriminate].
Qed.
Lemma extract_np record : extract_weights double false record <> Panic.
Proof.
  unfold extract_weights. destruct (negb _); [discriminate|]. intros H. bp H. bp H. destruct x0 as [nw t].
  bp H. destruct x0 as [w t']. discriminate.
Qed.
Lemma hepmc_np names record : parse_hepmc double false sort names record <> Panic.
Proof.
  unfold parse_hepmc. intros H. bp H; [exact (extract_np _ H)|]. destruct x as [[w ws] rest].
  bp H; [revert H; apply lines_np; lia|]. destruct x as [u b]. discriminate.
Qed.
Lemma hepmc_panic names record : parse_hepmc double true sort names record = Panic <-> hepmc_without_weights record.
Proof.
  unfold parse_hepmc. split.
  - intros H. bp H.
    2:{ exfalso. destruct x as [[w ws] rest]. bp H; [revert H; apply lines_np; lia|]. destruct x as [u b]. discriminate. }
    unfold extract_weights in H. destruct (starts_with_E record) eqn:HE; [|discriminate]. cbn [negb] in H.
    bp H. bp H. destruct x0 as [nw rest]. bp H. destruct x0 as [ws t]. destruct ws as [|w ws]; [|discriminate].
    destruct (head_spec _ _ _ _ HE E E0) as (pre & -> & Hb). apply u32_entry_some in E0 as (p & _ & _ & _ & Hh).
    assert (Hz : nw = 0%N).
    { destruct (N.to_nat nw) as [|k] eqn:Ek; [lia|]. exfalso. cbn [count] in E1. destruct (double_entry double rest) as [[w r]|]; [|discriminate].
      destruct (count (double_entry double) k r) as [[l r']|]; discriminate. }
    subst nw. exists pre, rest. auto.
  - intros (pre & rest & -> & Hb & Hh). destruct (head_app _ _ _ Hb Hh) as (r1 & HE & E1 & E2).
    unfold extract_weights. rewrite HE. cbn [negb]. rewrite E1. cbn [or_err bind]. rewrite E2. cbn [or_err bind].
    change (N.to_nat 0) with 0. cbn [count or_err bind]. reflexivity.
Qed.

(** *** LHEF *)
Lemma lhef_particles_np : forall ls b, lhef_particles double ls b <> Panic.
Proof.
  induction ls as [|l ls IH]; intros b; cbn [lhef_particles]; [discriminate|]. intros H. bp H; [|exact (IH _ H)]. unfold lhef_particle in H.
  bp H. destruct x as [? t1]. bp H. destruct x as [? t2]. destruct (negb _); [discriminate|].
  bp H. bp H. destruct x0 as [? t3]. bp H. destruct x0 as [? t4]. bp H. destruct x0 as [? t5]. bp H. destruct x0 as [? t6]. discriminate.
Qed.
Lemma lhef_panic mw record : parse_lhef double mw sort record = Panic <-> lhef_too_few record.
Proof.
  unfold parse_lhef, trim_start. split.
  - destruct (span is_white record) as [lead t] eqn:Esp. cbn [snd]. apply span_spec in Esp as (-> & Hlead & Ht).
    intros H. bp H. apply find_char_some in E as (line & r & -> & <- & Hline). bp H. destruct x as [nup rest].
    assert (Hr : skipn (1 + length line) (line ++ NL :: r) = r).
    { cbn. clear. induction line as [|c line IH]; [reflexivity|exact IH]. }
    rewrite Hr in E. destruct (N.to_nat nup <? 2) eqn:E2.
    2:{ exfalso. bp H. destruct x as [? t1]. bp H. destruct x as [? t2]. bp H; [exact (lhef_particles_np _ _ H)|discriminate]. }
    clear H. apply Nat.ltb_lt in E2.
    unfold u32_entry0, preceded0, space0 in E. destruct (span is_space r) as [s0 r'] eqn:Es0. cbn [snd] in E.
    apply span_spec in Es0 as (-> & Hs0 & Hr').
    unfold u32 in E. destruct r' as [|c r']; [discriminate|]. destruct (digit c) as [d|] eqn:Ed; [|discriminate].
    destruct (digits_from_some _ _ _ _ E) as (ds & Hd1 & Hd2 & Hd3 & Hd4 & Hd5); [reflexivity|].
    exists lead, line, s0, ds, rest. rewrite Hd1. split; [reflexivity|].
    split; [eapply Forall_impl; [|exact Hlead]; intros a; apply is_white_iff|].
    split; [destruct line; [discriminate Ht|discriminate]|]. split; [exact Hline|].
    split. { destruct line as [|a line]; [exact I|]. cbn in Ht |- *. apply is_white_false. exact Ht. }
    split; [eapply Forall_impl; [|exact Hs0]; intros a; apply is_space_blank|].
    split. { intros ->. cbn in Hd1. rewrite <- Hd1 in Hd5. cbn in Hd5. apply Hd5. apply digit_some in Ed as [Hc _]. exact Hc. }
    split; [exact Hd2|]. split; [exact Hd5|]. assert (Hv : decimal_value ds = nup) by (rewrite Hd3; reflexivity). lia.
  - intros (lead & line & s0 & ds & rest & -> & Hlead & Hlne & Hline & Hlh & Hs0 & Hdne & Hds & Hrest & Hv).
    assert (Hsp : span is_white (lead ++ line ++ NL :: s0 ++ ds ++ rest) = (lead, line ++ NL :: s0 ++ ds ++ rest)).
    { apply span_app; [eapply Forall_impl; [|exact Hlead]; intros a Ha; apply is_white_iff; exact Ha|].
      destruct line as [|a line]; [congruence|]. cbn in Hlh |- *. apply is_white_false. exact Hlh. }
    assert (Hsp0 : span is_space (s0 ++ ds ++ rest) = (s0, ds ++ rest)).
    { apply span_app; [eapply Forall_impl; [|exact Hs0]; intros a Ha; apply is_space_blank; exact Ha|].
      destruct ds as [|c ds]; [congruence|]. inversion Hds; subst. cbn. apply is_space_false. intros Hb. eapply decimal_not_ws; [eassumption|left; exact Hb]. }
    change newline with NL. rewrite Hsp. cbn [snd]. rewrite (find_char NL line _ Hline). cbn [or_err bind].
    assert (Hsk : skipn (1 + length line) (line ++ NL :: s0 ++ ds ++ rest) = s0 ++ ds ++ rest).
    { cbn. clear. induction line as [|c line IH]; [reflexivity|exact IH]. }
    rewrite Hsk. unfold u32_entry0, preceded0, space0. rewrite Hsp0. cbn [snd].
    assert (Hu : u32 (ds ++ rest) = Some (decimal_value ds, rest)).
    { unfold u32. destruct ds as [|c ds]; [congruence|]. cbn [app]. inversion Hds; subst. rewrite (digit_of _ H1).
      change (c :: ds ++ rest) with ((c :: ds) ++ rest). apply digits_from_app; auto. change (decimal_value (c :: ds) < 2 ^ 32)%N. lia. }
    rewrite Hu. cbn [or_err bind]. replace (N.to_nat (decimal_value ds) <? 2) with true by (symmetry; apply Nat.ltb_lt; lia). reflexivity.
Qed.

(** *** STRIPPER XML *)
Definition suffix (t r : text) : Prop := exists a, t = a ++ r.
Lemma suffix_trans t r s : suffix t r -> suffix r s -> suffix t s.
Proof. intros (a & ->) (b & ->). exists (a ++ b). rewrite app_assoc. reflexivity. Qed.
Lemma suffix_len t r : suffix t r -> length r <= length t.
Proof. intros (a & ->). rewrite app_length. lia. Qed.
Lemma suffix_span p t : suffix t (snd (span p t)).
Proof. destruct (span p t) as [a b] eqn:E. apply span_spec in E as (-> & _). exists a. reflexivity. Qed.
Lemma suffix_strip p t r : strip_prefix p t = Some r -> suffix t r.
Proof. intros H. apply strip_prefix_some in H as ->. exists p. reflexivity. Qed.
Lemma suffix_i32 t x r : i32 t = Some (x, r) -> suffix t r.
Proof. intros H. apply i32_eats in H as (q & -> & _). exists q. reflexivity. Qed.
Lemma suffix_double t x r : double t = Some (x, r) -> suffix t r.
Proof. intros H. apply (nt_consumes _ _ _ _ HT) in H as (q & -> & _). exists q. reflexivity. Qed.
Lemma suffix_skipn n t : suffix t (skipn n t).
Proof. exists (firstn n t). symmetry. apply firstn_skipn. Qed.
Lemma suffix_comma t e r : then_comma (double t) = Some (e, r) -> suffix t r.
Proof.
  unfold then_comma. destruct (double t) as [[x r']|] eqn:E; [|discriminate]. destruct (chr "," r') as [r2|] eqn:E2; [|discriminate].
  intros H; injection H as _ <-. eapply suffix_trans; [eapply suffix_double; exact E|eapply suffix_strip; exact E2].
Qed.
Lemma suffix_momentum t p r : particle_momentum double t = Some (p, r) -> suffix t r.
Proof.
  unfold particle_momentum. destruct (then_comma (double (space0 t))) as [[e t1]|] eqn:E1; [|discriminate].
  destruct (then_comma (double t1)) as [[x t2]|] eqn:E2; [|discriminate]. destruct (then_comma (double t2)) as [[y t3]|] eqn:E3; [|discriminate].
  destruct (double t3) as [[z t4]|] eqn:E4; [|discriminate]. intros H; injection H as _ <-.
  eapply suffix_trans; [apply (suffix_span is_space)|]. eapply suffix_trans; [eapply suffix_comma; exact E1|].
  eapply suffix_trans; [eapply suffix_comma; exact E2|]. eapply suffix_trans; [eapply suffix_comma; exact E3|].
  eapply suffix_trans; [eapply suffix_double; exact E4|]. apply (suffix_span is_space).
Qed.

Lemma stripper_particles_panic : forall fuel t b, length t <= fuel -> stripper_particles double fuel t b = Panic -> stripper_cut t.
Proof.
  assert (Hcut : forall t r, suffix t r -> stripper_cut r -> stripper_cut t).
  { intros t r (a & ->) (x & y & -> & H). exists (a ++ x), y. rewrite <- app_assoc. auto. }
  induction fuel as [|fuel IH]; intros t b Hl; cbn [stripper_particles].
  - destruct t; [discriminate|cbn in Hl; lia].
  - destruct (particle_start t) as [r0|] eqn:E0; [|discriminate]. unfold particle_start in E0.
    assert (H0 : suffix t r0) by (eapply suffix_trans; [apply suffix_span|eapply suffix_strip; exact E0]).
    assert (Hl0 : length r0 <= fuel).
    { pose proof (suffix_len _ _ (suffix_span is_multispace t)) as H. apply strip_prefix_some in E0. rewrite E0 in H. rewrite app_length in H. cbn [length lit list_ascii_of_string] in H. change (length (lit "<p")) with 2 in H. lia. }
    intros H. bp H. destruct x as [st r1]. unfold particle_status in E.
    destruct (strip_prefix (lit "id=" ++ [QUOTE]) (space0 r0)) as [r1'|] eqn:E1; [|discriminate].
    assert (H1 : suffix r0 r1). { eapply suffix_trans; [apply (suffix_span is_space)|]. eapply suffix_trans; [eapply suffix_strip; exact E1|eapply suffix_i32; exact E]. }
    destruct (negb _).
    + bp H. apply IH in H.
      * eapply Hcut; [|exact H]. eapply suffix_trans; [exact H0|]. eapply suffix_trans; [exact H1|apply suffix_skipn].
      * pose proof (suffix_len _ _ H1). pose proof (suffix_len _ _ (suffix_skipn (x + 4) r1)). lia.
    + bp H. destruct x as [pid r2]. unfold particle_id in E2. destruct (chr "," r1) as [r2'|] eqn:E3; [|discriminate].
      assert (H2 : suffix r1 r2) by (eapply suffix_trans; [eapply suffix_strip; exact E3|eapply suffix_i32; exact E2]).
      bp H. rename x into r3. apply strip_prefix_some in E4. destruct r3 as [|c r3].
      { destruct H0 as (a0 & ->), H1 as (a1 & ->), H2 as (a2 & ->). exists (a0 ++ a1 ++ a2), []. rewrite E4, <- !app_assoc. split; [reflexivity|exact I]. }
      destruct (128 <=? N_of_ascii c)%N eqn:Ec.
      { destruct H0 as (a0 & ->), H1 as (a1 & ->), H2 as (a2 & ->). exists (a0 ++ a1 ++ a2), (c :: r3). rewrite E4, <- !app_assoc. split; [reflexivity|].
        cbn. apply N.leb_le. exact Ec. }
      assert (H3 : suffix r2 r3) by (rewrite E4; exists [QUOTE; ">"%char; c]; reflexivity).
      bp H. destruct x as [p r4]. apply suffix_momentum in E5. bp H. apply suffix_strip in E6. rename x into r5. apply IH in H.
      * eapply Hcut; [|exact H]. eapply suffix_trans; [exact H0|]. eapply suffix_trans; [exact H1|]. eapply suffix_trans; [exact H2|].
        eapply suffix_trans; [exact H3|]. eapply suffix_trans; [exact E5|exact E6].
      * apply suffix_len in H1, H2, H3, E5, E6. lia.
Qed.
Lemma stripper_panic mw record : parse_stripper_xml double mw sort record = Panic -> stripper_cut record.
Proof.
  unfold parse_stripper_xml. intros H. bp H. bp H. destruct x0 as [w r1]. bp H. bp H; [|discriminate].
  apply stripper_particles_panic in H; [|lia]. destruct H as (a & b & Hab & Hb).
  assert (H1 : suffix record x).
  { unfold weight_start in E. destruct (strip_prefix _ record) as [t1|] eqn:F1 in E; [|discriminate]. destruct (space1 t1) as [t2|] eqn:F2 in E; [|discriminate].
    apply suffix_strip in F1, E. apply space1_some in F2 as (s & -> & _). eapply suffix_trans; [exact F1|]. eapply suffix_trans; [|exact E]. exists s. reflexivity. }
  assert (H2 : suffix record (skipn (x0 + 1) r1)).
  { eapply suffix_trans; [exact H1|]. eapply suffix_trans; [eapply suffix_double; exact E0|apply suffix_skipn]. }
  destruct H2 as (q & ->). rewrite Hab. exists (q ++ a), b. rewrite <- app_assoc. auto.
Qed.
End P.
