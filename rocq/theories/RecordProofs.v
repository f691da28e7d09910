(** Reading an event record. *)
From Coq Require Import Permutation.
From Verif Require Import Base BaseProofs Num ModelEvent SpecEvent EventProofs ModelText SpecText SpecFormats SpecHepMC TextProofs ReaderProofs ParserProofs
  ModelHepMC HepMCProofs HepMCProofs2 NamesProofs ModelLHEF ModelStripper FormatProofs SpecRecord.
From Coq Require Import Lia.

(** *** Integers *)
Lemma signed_app (pos : bool) (ds : text) : Forall decimal_digit ds -> forall (v : N) (r : text), heads (fun c => ~ decimal_digit c) r ->
  (let x := Z.of_N (dec_from v ds) in - 2 ^ 31 <= (if pos then x else - x) < 2 ^ 31)%Z ->
  signed_from pos (if pos then Z.of_N v else - Z.of_N v)%Z (ds ++ r) = Some ((if pos then Z.of_N (dec_from v ds) else - Z.of_N (dec_from v ds))%Z, r).
Proof.
  cbv zeta. induction 1 as [|c ds Hc Hds IH]; intros v r Hr Hb; cbn [app signed_from].
  - destruct r as [|c r]; [reflexivity|]. cbn [heads] in Hr. apply digit_none in Hr. cbn [signed_from]. rewrite Hr. reflexivity.
  - rewrite (digit_of _ Hc).
    pose proof (dec_from_le ds (v * 10 + (N_of_ascii c - 48))) as Hle.
    change (dec_from v (c :: ds)) with (dec_from (v * 10 + (N_of_ascii c - 48))%N ds) in *.
    assert (Hv : (if pos then (if pos then Z.of_N v else - Z.of_N v) * 10 + Z.of_N (N_of_ascii c - 48)
                  else (if pos then Z.of_N v else - Z.of_N v) * 10 - Z.of_N (N_of_ascii c - 48))%Z
                 = (if pos then Z.of_N (v * 10 + (N_of_ascii c - 48)) else - Z.of_N (v * 10 + (N_of_ascii c - 48)))%Z).
    { destruct pos; lia. }
    rewrite Hv.
    rewrite (proj2 (andb_true_iff _ _)).
    + apply IH; auto.
    + split; [apply Z.leb_le|apply Z.ltb_lt]; destruct pos; lia.
Qed.

Lemma decimal_not_sign c : decimal_digit c -> ceq c "+" = false /\ ceq c "-" = false.
Proof. intros H. split; apply ceq_false; intros ->; unfold decimal_digit in H; cbn in H; lia. Qed.

Lemma i32_app z tok r : int_word z tok -> heads (fun c => ~ decimal_digit c) r -> i32 (tok ++ r) = Some (z, r).
Proof.
  intros (sign & ds & -> & Hne & Hds & Hz & Hs) Hr. destruct ds as [|d ds]; [congruence|]. clear Hne.
  assert (Hd : decimal_digit d) by (inversion Hds; auto).
  pose proof (signed_app true (d :: ds) Hds 0%N r Hr) as Hp. pose proof (signed_app false (d :: ds) Hds 0%N r Hr) as Hm.
  cbv zeta in Hp, Hm. change (dec_from 0 (d :: ds)) with (decimal_value (d :: ds)) in *.
  destruct (decimal_not_sign _ Hd) as [Hp1 Hm1].
  destruct Hs as [[[-> | ->] ->]|[-> ->]]; unfold i32; rewrite <- ?app_assoc; cbn [app].
  - rewrite Hp1, Hm1, (digit_of _ Hd). apply Hp. lia.
  - change (ceq "+" "+") with true. cbn iota. rewrite (digit_of _ Hd). apply Hp. lia.
  - change (ceq "-" "+") with false. change (ceq "-" "-") with true. cbn iota. rewrite (digit_of _ Hd). apply Hm. lia.
Qed.
Lemma int_word_word z tok : int_word z tok -> word tok.
Proof.
  intros (sign & ds & -> & Hne & Hds & _ & Hs). split.
  - destruct sign; [exact Hne|discriminate].
  - apply Forall_app. split.
    + destruct Hs as [[[-> | ->] _]|[-> _]]; repeat constructor; intros H; repeat (destruct H as [H|H]); discriminate.
    + eapply Forall_impl; [|exact Hds]. intros c. apply decimal_not_ws.
Qed.

Lemma ws_heads_not_digit r : heads whitespace r -> heads (fun c => ~ decimal_digit c) r.
Proof. apply heads_impl. exact ws_not_decimal. Qed.
Lemma i32_entry_app s z tok r : blanks s -> int_word z tok -> heads whitespace r -> i32_entry (s ++ tok ++ r) = Some (z, r).
Proof.
  intros Hs Hz Hr. unfold i32_entry, preceded1. rewrite space1_app; [|exact Hs|].
  - apply i32_app; [exact Hz|]. apply ws_heads_not_digit, Hr.
  - apply word_heads; [eapply int_word_word, Hz|]. intros c Hc Hb. apply Hc, blank_ws, Hb.
Qed.

Section Records.
Context (N : NumOps) (D Dn : N -> Prop) (double : parser N) (show : N -> text) (sort : sorter).
Hypothesis HT : number_text N Dn double show.

Lemma num_word_app x tok r : num_word double x tok -> heads (fun c => ~ number_char c) r -> double (tok ++ r) = Some (x, r).
Proof. intros H Hr. rewrite (nt_local _ _ _ _ HT) by exact Hr. rewrite H. reflexivity. Qed.
Lemma num_word_chars x tok : num_word double x tok -> tok <> [] /\ Forall number_char tok.
Proof. intros H. destruct (nt_consumes _ _ _ _ HT _ _ _ H) as (p & -> & Hp & Hc). rewrite app_nil_r. auto. Qed.
Lemma num_word_word x tok : num_word double x tok -> word tok.
Proof. intros H. destruct (num_word_chars _ _ H). apply number_word; auto. Qed.
Lemma num_entry_app s x tok r : blanks s -> num_word double x tok -> heads whitespace r -> double_entry double (s ++ tok ++ r) = Some (x, r).
Proof.
  intros Hs Hx Hr. unfold double_entry. rewrite (double_entry_app HT s tok x [] r); auto. eapply num_word_word, Hx.
Qed.

(** *** HepMC *)
Definition of_unit (u : energy_unit) : bool := match u with MeV => true | GeV => false end.

Lemma wl_cons e l t r : word_list (e :: l) t -> heads whitespace r ->
  exists s t', t = s ++ e ++ t' /\ blanks s /\ word_list l t' /\ heads whitespace (t' ++ r).
Proof.
  intros H Hr. inversion H; subst. exists s, t0. split; [reflexivity|]. split; [auto|]. split; [auto|]. eapply word_list_heads; eauto.
Qed.

Lemma particle_line id e px py pz status line rest b :
  hepmc_line double line (HParticle id e px py pz status) -> heads whitespace rest ->
  exists r, line = "P"%char :: tl line /\ ~ In NL r /\ parse_particle_line double (line ++ rest) b =
    Ok (if Z.eqb status 1 then add_outgoing b id (momentum e px py pz) else b, r ++ rest).
Proof.
  intros (Hnl & barcode & tid & tpx & tpy & tpz & te & mass & ts & t & more & -> & Hw & Hm & Hid & Hpx & Hpy & Hpz & He & Hs) Hrest.
  assert (Hmr : heads whitespace (more ++ rest)) by (apply heads_app_inv; auto).
  exists more. split; [reflexivity|]. split; [intros Hin; apply Hnl; right; apply in_or_app; auto|].
  unfold parse_particle_line. change (tl (("P"%char :: t ++ more) ++ rest)) with ((t ++ more) ++ rest). rewrite <- app_assoc.
  apply word_list_words in Hw as Hall. inversion Hall as [|? ? Hwb _]; subst.
  assert (Hwm : word mass) by (rewrite Forall_forall in Hall; apply Hall; cbn; auto 10).
  apply wl_cons with (r := more ++ rest) in Hw as (s1 & t1 & -> & Hs1 & Hw & Hh1); [|exact Hmr].
  apply wl_cons with (r := more ++ rest) in Hw as (s2 & t2 & -> & Hs2 & Hw & Hh2); [|exact Hmr].
  apply wl_cons with (r := more ++ rest) in Hw as (s3 & t3 & -> & Hs3 & Hw & Hh3); [|exact Hmr].
  apply wl_cons with (r := more ++ rest) in Hw as (s4 & t4 & -> & Hs4 & Hw & Hh4); [|exact Hmr].
  apply wl_cons with (r := more ++ rest) in Hw as (s5 & t5 & -> & Hs5 & Hw & Hh5); [|exact Hmr].
  apply wl_cons with (r := more ++ rest) in Hw as (s6 & t6 & -> & Hs6 & Hw & Hh6); [|exact Hmr].
  apply wl_cons with (r := more ++ rest) in Hw as (s7 & t7 & -> & Hs7 & Hw & Hh7); [|exact Hmr].
  apply wl_cons with (r := more ++ rest) in Hw as (s8 & t8 & -> & Hs8 & Hw & Hh8); [|exact Hmr].
  inversion Hw; subst.
  rewrite <- !app_assoc in *. cbn [app] in *.
  rewrite any_entry_app by auto. cbn [or_err bind].
  rewrite (i32_entry_app s2 id tid) by auto. cbn [or_err bind].
  rewrite (num_entry_app s3 px tpx) by auto. cbn [or_err bind].
  rewrite (num_entry_app s4 py tpy) by auto. cbn [or_err bind].
  rewrite (num_entry_app s5 pz tpz) by auto. cbn [or_err bind].
  rewrite (num_entry_app s6 e te) by auto. cbn [or_err bind].
  rewrite any_entry_app by auto. cbn [or_err bind].
  rewrite (i32_entry_app s8 status ts) by auto. cbn [or_err bind].
  destruct (Z.eqb status 1); reflexivity.
Qed.

Lemma unit_line mev line rest : hepmc_line double line (HUnit mev) -> heads whitespace rest ->
  exists r, line = "U"%char :: tl line /\ ~ In NL r /\ parse_units_line (line ++ rest) = Ok (if mev then MeV else GeV, r ++ rest).
Proof.
  intros (Hnl & t & more & -> & Hm & Hw) Hrest.
  assert (Hmr : heads whitespace (more ++ rest)) by (apply heads_app_inv; auto).
  exists more. split; [reflexivity|]. split; [intros Hin; apply Hnl; right; apply in_or_app; auto|].
  unfold parse_units_line. change (tl (("U"%char :: t ++ more) ++ rest)) with ((t ++ more) ++ rest). rewrite <- app_assoc.
  apply word_list_words in Hw as Hall. inversion Hall as [|? ? Hwb _]; subst.
  apply wl_cons with (r := more ++ rest) in Hw as (s1 & t1 & -> & Hs1 & Hw & Hh1); [|exact Hmr].
  inversion Hw; subst. rewrite <- !app_assoc. cbn [app]. rewrite any_entry_app by auto. cbn [or_err bind].
  destruct mev; reflexivity.
Qed.

Definition wanted_weights (names : list (list ascii)) (l : list (list ascii)) (W : list N) : list N :=
  map snd (filter (fun x => if in_dec (list_eq_dec ascii_dec) (fst x) names then true else false) (combine l W)).

Lemma names_loop_app names : forall l t W seen (b : EventBuilder N), quoted_list l t -> forall more : text,
  exists q b', names_loop names (firstn (length l) W) (t ++ more) seen b = Ok (q ++ more, rev (filter (is_name names) (firstn (length W) l)) ++ seen, b') /\
    (exists p, t = p ++ q) /\ b' = mkBuilder (b_weights b ++ wanted_weights names l W) (b_out b).
Proof.
  induction l as [|name l IH]; intros t W seen b Hq more; inversion Hq as [|s nm l' t0 Hs Hnm Hq']; subst.
  - exists [], b. unfold wanted_weights. cbn. rewrite firstn_nil. cbn. rewrite app_nil_r. destruct b. repeat split. exists []. reflexivity.
  - destruct W as [|w W].
    + unfold wanted_weights. cbn. eexists _, b. split; [reflexivity|]. split; [exists []; reflexivity|]. rewrite app_nil_r. destruct b; reflexivity.
    + cbn [length firstn names_loop]. rewrite <- app_assoc. cbn [app]. rewrite <- app_assoc. cbn [app].
      change quote with QUOTE in *. rewrite string_entry_app by auto. cbn [or_err bind].
      assert (Hin : (if in_dec (list_eq_dec ascii_dec) name names then true else false) = is_name names name).
      { destruct (in_dec _ name names) as [Hi|Hi]; symmetry; [apply is_name_In, Hi|]. destruct (is_name names name) eqn:E; [|reflexivity].
        apply is_name_In in E. contradiction. }
      unfold wanted_weights. cbn [combine filter fst]. rewrite Hin.
      destruct (is_name names name) eqn:E.
      * destruct (IH t0 W (name :: seen) (add_weight true b w) Hq' more) as (q & b' & H & (p & Hp) & Hb').
        exists q, b'. split; [etransitivity; [exact H|]; cbn [firstn filter]; rewrite ?E; cbn [rev]; rewrite <- app_assoc; reflexivity|]. split.
        { exists (s ++ QUOTE :: name ++ QUOTE :: p). rewrite Hp. rewrite <- app_assoc. cbn. rewrite <- app_assoc. reflexivity. }
        rewrite Hb'. cbn. rewrite <- app_assoc. reflexivity.
      * destruct (IH t0 W seen b Hq' more) as (q & b' & H & (p & Hp) & Hb').
        exists q, b'. split; [etransitivity; [exact H|]; cbn [firstn filter]; rewrite ?E; reflexivity|]. split.
        { exists (s ++ QUOTE :: name ++ QUOTE :: p). rewrite Hp. rewrite <- app_assoc. cbn. rewrite <- app_assoc. reflexivity. }
        exact Hb'.
Qed.

Lemma names_line names l line rest W b : hepmc_line double line (HNames l) -> heads whitespace rest ->
  (forall n, In n names -> In n (firstn (length W) l)) ->
  exists r, line = "N"%char :: tl line /\ ~ In NL r /\
    parse_weight_names_line names (line ++ rest) W b = Ok (mkBuilder (b_weights b ++ wanted_weights names l W) (b_out b), r ++ rest).
Proof.
  intros (Hnl & v & num & t & more & -> & Hnum & Hv & Hq & Hl & Hm) Hrest Hall.
  unfold parse_weight_names_line, text in *. destruct names as [|n0 names'] eqn:En.
  - exists ("N"%char :: num ++ t ++ more). split; [reflexivity|]. split; [exact Hnl|].
    assert (Hw : wanted_weights [] l W = []).
    { unfold wanted_weights. match goal with |- map _ (filter _ ?y) = _ => generalize y end. intros x. induction x as [|a x IH]; [reflexivity|]. exact IH. }
    rewrite Hw, app_nil_r. destruct b; reflexivity.
  - rewrite <- En in *. clear En n0 names'. change (tl (("N"%char :: num ++ t ++ more) ++ rest)) with ((num ++ t ++ more) ++ rest).
    rewrite <- !app_assoc. assert (Hhd : heads (fun c => ~ decimal_digit c) (t ++ more ++ rest)).
    { inversion Hq; subst; [cbn [app]; apply ws_heads_not_digit, heads_app_inv; auto|]. rewrite <- app_assoc. eapply heads_impl; [|apply blanks_heads; auto].
      intros c Hc. apply ws_not_decimal, blank_ws, Hc. }
    rewrite (u32_entry_app _ _ _ Hnum Hv Hhd). cbn [or_err bind]. rewrite <- Hl.
    destruct (names_loop_app names l t W [] b Hq (more ++ rest)) as (q & b' & Hn & (p & ->) & ->).
    match goal with |- context[names_loop ?x1 ?x2 ?x3 ?x4 ?x5] => change (names_loop x1 x2 x3 x4 x5) with (names_loop names (firstn (length l) W) ((p ++ q) ++ more ++ rest) [] b) end.
    unfold text in *. rewrite Hn. cbn [bind]. rewrite app_nil_r.
    destruct (List.find _ names) as [missing|] eqn:F.
    { exfalso. apply List.find_some in F as [Hin Hmiss]. apply negb_true_iff in Hmiss.
      assert (H : is_name (rev (filter (is_name names) (firstn (length W) l))) missing = true); [|exact (Bool.eq_true_false_abs _ H Hmiss)].
      apply is_name_In. apply -> in_rev. apply filter_In. split; [apply Hall, Hin|]. apply is_name_In, Hin. }
    exists (q ++ more). split; [reflexivity|]. split.
    + intros Hin. apply Hnl. right. rewrite !in_app_iff in *. tauto.
    + rewrite <- app_assoc. reflexivity.
Qed.

(** what is after a line *)
Lemma after_heads (ls : list text) tail : (tail = [] \/ exists s, tail = newline :: s) ->
  heads whitespace (concat (map (cons newline) ls) ++ tail).
Proof. intros H. destruct ls; [|exact newline_ws]. destruct H as [->|(s & ->)]; [exact I|exact newline_ws]. Qed.

Lemma parse_lines_white mw names W f : forall tail u b, Forall (fun c => whitespace c \/ c = "011"%char) tail -> length tail <= f ->
  parse_lines double f mw names W tail u b = Ok (u, b).
Proof.
  induction f as [|f IH]; intros tail u b Ht Hf.
  { destruct tail; [reflexivity|cbn in Hf; lia]. }
  cbn [parse_lines]. destruct (find [NL] tail) as [pos|] eqn:F; [|reflexivity].
  apply find_char_some in F as (a & t & -> & <- & Ha).
  replace (skipn (length a + 1) (a ++ NL :: t)) with t.
  2:{ replace (length a + 1) with (length (a ++ [NL])) by (rewrite app_length; reflexivity).
      replace (a ++ NL :: t) with ((a ++ [NL]) ++ t) by (rewrite <- app_assoc; reflexivity). symmetry; apply skipn_pre. }
  apply Forall_app in Ht as [_ Ht]. inversion Ht as [|? ? _ Ht']; subst.
  rewrite app_length in Hf. cbn in Hf.
  assert (Hgo : parse_lines double f mw names W t u b = Ok (u, b)) by (apply IH; [exact Ht'|lia]).
  destruct t as [|c t]; [exact Hgo|]. inversion Ht' as [|? ? Hc _]; subst.
  assert (Hw : forallb is_white (c :: t) = true).
  { apply forallb_forall. intros x Hx. apply is_white_iff. rewrite Forall_forall in Ht'. apply Ht', Hx. }
  rewrite Hw.
  assert (Hne : forall x, In x ["V"; "F"; "H"; "C"; "N"; "P"; "U"]%char -> ceq c x = false).
  { intros x Hx. apply ceq_false. intros ->. cbn in Hx.
    repeat (destruct Hx as [<-|Hx]; [repeat (destruct Hc as [Hc|Hc]); discriminate|]). contradiction. }
  rewrite !Hne by (cbn; auto 10). rewrite andb_false_r. exact Hgo.
Qed.

Lemma find_after (a t : text) : ~ In NL a -> find [NL] (a ++ NL :: t) = Some (length a).
Proof. apply find_char. Qed.

Definition step_builder (mw : bool) names W (b : EventBuilder N) (cs : list (hepmc_content N)) : EventBuilder N :=
  mkBuilder (b_weights b ++ if mw then named_weights names W cs else [])
    (b_out b ++ map (fun x => (fst x, let '(e, px, py, pz) := snd x in momentum e px py pz)) (hepmc_outgoing cs)).

Lemma parse_lines_app mw names W : forall ls cs, Forall2 (hepmc_line double) ls cs ->
  (mw = true -> all_named names W cs) -> forall tail junk f u b,
  (tail = [] \/ exists s, tail = newline :: s /\ Forall (fun c => whitespace c \/ c = "011"%char) s) -> ~ In NL junk ->
  length (concat (map (cons newline) ls) ++ tail) <= f ->
  parse_lines double f mw names W (junk ++ concat (map (cons newline) ls) ++ tail) u b =
    Ok (if fold_left (fun u c => match c with HUnit mev => mev | _ => u end) cs (of_unit u) then MeV else GeV, step_builder mw names W b cs).
Proof.
  induction 1 as [|line c ls cs Hline Hlines IH]; intros Hall tail junk f u b Htail Hj Hf; rewrite parse_lines_skip by exact Hj.
  - cbn [map concat app fold_left]. replace (step_builder mw names W b []) with b.
    2:{ unfold step_builder. cbn. rewrite !app_nil_r. destruct b, mw; cbn; rewrite app_nil_r; reflexivity. }
    rewrite parse_lines_white; [destruct u; reflexivity| |exact Hf].
    destruct Htail as [->|(s & -> & Hs)]; [constructor|]. constructor; [left; exact newline_ws|exact Hs].
  - set (rest := concat (map (cons newline) ls) ++ tail).
    assert (Hrest : heads whitespace rest).
    { apply after_heads. destruct Htail as [->|(s & -> & _)]; [left; reflexivity|right; eauto]. }
    replace (concat (map (cons newline) (line :: ls)) ++ tail) with (newline :: line ++ rest) in *
      by (unfold rest; cbn; rewrite <- app_assoc; reflexivity).
    destruct f as [|f]; [cbn in Hf; lia|].
    assert (Hf' : length rest <= f) by (cbn in Hf; rewrite app_length in Hf; lia).
    assert (Hall' : mw = true -> all_named names W cs) by (intros Hmw l Hl; apply (Hall Hmw); right; exact Hl).
    cbn [parse_lines]. change (find [NL] (newline :: line ++ rest)) with (Some 0). cbn iota.
    change (skipn (0 + 1) (newline :: line ++ rest)) with (line ++ rest).
    assert (Hgo : forall r u' b', ~ In NL r -> parse_lines double f mw names W (r ++ rest) u' b' =
      Ok (if fold_left (fun u c => match c with HUnit mev => mev | _ => u end) cs (of_unit u') then MeV else GeV, step_builder mw names W b' cs)).
    { intros r u' b' Hr. apply IH; auto. }
    cbn [fold_left].
    destruct c as [id e px py pz status|mev|l|].
    + destruct (particle_line id e px py pz status line rest b Hline Hrest) as (r & Hhd & Hr & Hp).
      rewrite Hhd in *. cbn [app] in *. cbn [parse_lines]. change (ceq "P" "V" || ceq "P" "F" || ceq "P" "H" || ceq "P" "C" || (negb mw && ceq "P" "N")) with (negb mw && false).
      rewrite andb_false_r. change (ceq "P" "N") with false. change (ceq "P" "P") with true. cbn iota.
      rewrite Hp. cbn [bind]. rewrite Hgo by exact Hr. do 2 f_equal.
      unfold step_builder. cbn [hepmc_outgoing flat_map named_weights]. destruct (Z.eqb_spec status 1) as [->|Hne].
      * cbn [add_outgoing b_weights b_out]. rewrite <- app_assoc. reflexivity.
      * destruct status as [|[p|p|]|p]; try reflexivity. congruence.
    + destruct (unit_line mev line rest Hline Hrest) as (r & Hhd & Hr & Hp).
      rewrite Hhd in *. cbn [app] in *. change (ceq "U" "V" || ceq "U" "F" || ceq "U" "H" || ceq "U" "C" || (negb mw && ceq "U" "N")) with (negb mw && false).
      rewrite andb_false_r. change (ceq "U" "N") with false. change (ceq "U" "P") with false. change (ceq "U" "U") with true. cbn iota.
      rewrite Hp. cbn [bind]. rewrite Hgo by exact Hr. destruct mev; reflexivity.
    + destruct mw.
      * destruct (names_line names l line rest W b Hline Hrest) as (r & Hhd & Hr & Hp).
        { apply Hall; [reflexivity|]. left; reflexivity. }
        rewrite Hhd in *. cbn [app] in *. change (ceq "N" "V" || ceq "N" "F" || ceq "N" "H" || ceq "N" "C" || (negb true && ceq "N" "N")) with false.
        change (ceq "N" "N") with true. cbn iota.
        rewrite Hp. cbn [bind]. rewrite Hgo by exact Hr. do 2 f_equal.
        unfold step_builder. cbn [b_weights b_out]. rewrite <- app_assoc. reflexivity.
      * destruct Hline as (Hnl & v & num & t & more & Hl & _). subst line. cbn [app].
        change (ceq "N" "V" || ceq "N" "F" || ceq "N" "H" || ceq "N" "C" || (negb false && ceq "N" "N")) with true. cbn iota.
        match goal with |- parse_lines _ _ _ _ _ ?x _ _ = _ => change x with (("N"%char :: num ++ t ++ more) ++ rest) end.
        rewrite Hgo by exact Hnl. reflexivity.
    + destruct Hline as (Hnl & c & rest' & -> & Hc). cbn [app].
      assert (Hv : ceq c "V" || ceq c "F" || ceq c "H" || ceq c "C" || (negb mw && ceq c "N") = true).
      { cbn in Hc. repeat (destruct Hc as [<-|Hc]; [destruct mw; reflexivity|]). contradiction. }
      rewrite Hv. match goal with |- parse_lines _ _ _ _ _ ?x _ _ = _ => change x with ((c :: rest') ++ rest) end.
      rewrite Hgo by exact Hnl. reflexivity.
Qed.

Lemma reads_words : forall W toks, Forall2 (num_word double) W toks -> W <> [] -> reads N double toks W [].
Proof.
  induction 1 as [|w t W toks Hw HW IH]; [congruence|]. intros _. destruct HW as [|w2 t2 W toks Hw2 HW].
  - constructor. exact Hw.
  - constructor; [exact Hw|]. apply IH. discriminate.
Qed.

Lemma hepmc_read mw names record w W cs : cmp_on N D -> sort_ok sort ->
  hepmc_record double record (w :: W) cs -> (mw = true -> all_named names (w :: W) cs) ->
  Forall (fun x => mom_in D (in_gev (hepmc_mev cs) (snd x))) (hepmc_outgoing cs) ->
  exists ev, parse_hepmc double mw sort names record = Ok ev /\ ev_id ev = 0 /\
    ev_weights ev = w :: (if mw then named_weights names (w :: W) cs else []) /\
    grouped (ev_out ev) /\
    Permutation (map (fun x => (fst x, in_gev (hepmc_mev cs) (snd x))) (hepmc_outgoing cs)) (particles_of (ev_out ev)).
Proof.
  intros HD Hsort (n & pre & toks & t & more & ls & tail & -> & Hpre & Htoks & Hmore & Hnl & Hn & Hws & Hls & Htail) Hall Hin.
  set (rest := concat (map (cons newline) ls) ++ tail).
  assert (Hrest : heads whitespace rest).
  { apply after_heads. destruct Htail as [->|(s & -> & _)]; [left; reflexivity|right; eauto]. }
  assert (Hx : exists junk W', ~ In NL junk /\ extract_weights double mw ((pre ++ t ++ more) ++ rest) = Ok (w, W', junk ++ rest) /\ (mw = true -> W' = w :: W)).
  { rewrite <- !app_assoc. destruct mw.
    - exists more, (w :: W). split; [exact Hnl|]. split; [|reflexivity].
      apply (extract_multi_app N Dn double show HT n pre toks (w :: W) w t [] (more ++ rest)); auto.
      + apply heads_app_inv; auto.
      + apply reads_words; [exact Hws|discriminate].
    - inversion Hws as [|? tok ? toks' Hw Hws']; subst.
      inversion Htoks as [|s e l t' Hs He Ht' Hl]; subst.
      exists (t' ++ more), []. split; [rewrite in_app_iff; intros [Hi|Hi]; [exact (word_list_no_nl _ _ Hl Hi)|exact (Hnl Hi)]|].
      split; [|discriminate].
      destruct (head_app pre n ((s ++ tok ++ t') ++ more ++ rest) Hpre) as (r1 & HE & Hnw & Hu).
      { rewrite <- !app_assoc. eapply heads_impl; [|apply blanks_heads, Hs]. intros c Hc. apply ws_not_decimal, blank_ws, Hc. }
      unfold extract_weights. rewrite HE. cbn [negb]. rewrite Hnw. cbn [or_err bind]. rewrite Hu. cbn [or_err bind].
      rewrite <- !app_assoc. rewrite (num_entry_app s w tok); auto.
      eapply word_list_heads; [exact Hl|]. apply heads_app_inv; auto. }
  destruct Hx as (junk & W' & Hjunk & Hx & HW').
  assert (Hp : parse_lines double (length (junk ++ rest)) mw names W' (junk ++ rest) GeV (add_weight mw (builder_new mw) w) =
    Ok (if hepmc_mev cs then MeV else GeV, step_builder mw names W' (add_weight mw (builder_new mw) w) cs)).
  { apply parse_lines_app; auto; [|unfold rest, text in *; rewrite !app_length; lia]. intros Hmw. rewrite (HW' Hmw). auto. }
  unfold parse_hepmc. rewrite Hx. cbn [bind]. rewrite Hp. cbn [bind].
  eexists. split; [reflexivity|].
  set (b := step_builder mw names W' (add_weight mw (builder_new mw) w) cs).
  set (b' := match (if hepmc_mev cs then MeV else GeV) with GeV => b | MeV => rescale_energies b milli end).
  assert (Hbw : b_weights b' = w :: (if mw then named_weights names (w :: W) cs else [])).
  { unfold b', b. destruct mw; [rewrite (HW' eq_refl)|]; destruct (hepmc_mev cs); reflexivity. }
  assert (Hbo : b_out b' = map (fun x => (fst x, in_gev (hepmc_mev cs) (snd x))) (hepmc_outgoing cs)).
  { unfold b', b, in_gev. destruct (hepmc_mev cs); cbn; destruct mw; cbn; rewrite ?map_map;
      apply map_ext; intros [id [[[e px] py] pz]]; reflexivity. }
  destruct (compress_spec HD Hsort (out := b_out b')) as (Hg & _ & Hperm).
  { rewrite Hbo. apply Forall_forall. intros x Hx'. apply in_map_iff in Hx' as (y & <- & Hy). rewrite Forall_forall in Hin. exact (Hin y Hy). }
  split; [reflexivity|]. split; [exact Hbw|]. split; [exact Hg|]. rewrite <- Hbo. exact Hperm.
Qed.

(** *** LHEF *)
Lemma lines_from_app (line : text) : ~ In NL line -> forall cur t, lines_from cur (line ++ NL :: t) = strip_cr (rev cur ++ line) :: lines t.
Proof.
  induction line as [|c line IH]; intros Hn cur t; cbn [app lines_from].
  - rewrite app_nil_r, ceq_refl. reflexivity.
  - assert (Hc : ceq c NL = false) by (apply ceq_false; intros ->; apply Hn; left; reflexivity). rewrite Hc.
    rewrite IH by (intros Hi; apply Hn; right; exact Hi). cbn [rev]. rewrite <- app_assoc. reflexivity.
Qed.
Lemma lines_app (ls : list text) tail : Forall (fun l => ~ In NL l) ls -> forall pre : text, ~ In NL pre ->
  lines (pre ++ concat (map (cons newline) ls) ++ newline :: tail) = strip_cr pre :: map strip_cr ls ++ lines tail.
Proof.
  change newline with NL. induction 1 as [|l ls Hl Hls IH]; intros pre Hpre; cbn [map concat app].
  - unfold lines. rewrite lines_from_app by exact Hpre. reflexivity.
  - unfold lines at 1. rewrite lines_from_app by exact Hpre. rewrite <- app_assoc, IH by exact Hl. reflexivity.
Qed.
Lemma strip_cr_id (l : text) : ~ In CR l -> strip_cr l = l.
Proof.
  intros H. unfold strip_cr. destruct (rev l) as [|c r] eqn:E; [reflexivity|].
  assert (Hc : ceq c CR = false). { apply ceq_false. intros ->. apply H. apply in_rev. rewrite E. left; reflexivity. }
  rewrite Hc. reflexivity.
Qed.
Lemma space0_app s r : Forall blank s -> heads (fun c => ~ blank c) r -> space0 (s ++ r) = r.
Proof.
  intros Hs Hr. unfold space0. rewrite span_app; [reflexivity|apply Forall_space, Hs|].
  eapply heads_impl; [|exact Hr]. intros c. apply is_space_false.
Qed.
Lemma int_heads z tok (r : text) : int_word z tok -> heads (fun c => ~ blank c) (tok ++ r).
Proof. intros H. apply word_heads; [eapply int_word_word, H|]. intros c Hc Hb. apply Hc, blank_ws, Hb. Qed.
Lemma entries_of l t : word_list l t -> entries (length l) t.
Proof. induction 1; [constructor|]. constructor; auto. Qed.

Definition lhef_add (b : EventBuilder N) (c : Z * Z * option (N * N * N * N)) : EventBuilder N :=
  match c with
  | (id, status, Some (e, px, py, pz)) => if Z.eqb status 1 then add_outgoing b id (momentum e px py pz) else b
  | _ => b
  end.

Lemma lhef_particle_line line c b : lhef_line double line (fst (fst c)) (snd (fst c)) (snd c) ->
  lhef_particle double line b = Ok (lhef_add b c).
Proof.
  destruct c as [[id status] p]. cbn [fst snd]. intros (_ & _ & s0 & tid & rest & -> & Hs0 & Hid & Hp).
  assert (Hsp : forall r, heads whitespace r -> i32_entry0 (s0 ++ tid ++ r) = Some (id, r)).
  { intros r Hr. unfold i32_entry0, preceded0. rewrite space0_app; [|exact Hs0|eapply int_heads, Hid]. apply i32_app; [exact Hid|]. apply ws_heads_not_digit, Hr. }
  unfold lhef_particle. destruct p as [[[[e px] py] pz]|].
  - destruct Hp as (ts & m1 & m2 & c1 & c2 & tpx & tpy & tpz & te & t & more & -> & Hw & Hm & Hst & Hpx & Hpy & Hpz & He).
    rewrite Hsp by (eapply word_list_heads; eauto). cbn [or_err bind].
    assert (Hwords := word_list_words _ _ Hw).
    apply wl_cons with (r := more) in Hw as (s1 & t1 & -> & Hs1 & Hw & Hh1); [|exact Hm].
    rewrite <- !app_assoc. rewrite (i32_entry_app s1 status ts) by auto. cbn [or_err bind lhef_add].
    destruct (Z.eqb status 1); [|reflexivity]. cbn [negb].
    apply wl_cons with (r := more) in Hw as (s2 & t2 & -> & Hs2 & Hw & Hh2); [|exact Hm].
    apply wl_cons with (r := more) in Hw as (s3 & t3 & -> & Hs3 & Hw & Hh3); [|exact Hm].
    apply wl_cons with (r := more) in Hw as (s4 & t4 & -> & Hs4 & Hw & Hh4); [|exact Hm].
    apply wl_cons with (r := more) in Hw as (s5 & t5 & -> & Hs5 & Hw & Hh5); [|exact Hm].
    apply wl_cons with (r := more) in Hw as (s6 & t6 & -> & Hs6 & Hw & Hh6); [|exact Hm].
    apply wl_cons with (r := more) in Hw as (s7 & t7 & -> & Hs7 & Hw & Hh7); [|exact Hm].
    apply wl_cons with (r := more) in Hw as (s8 & t8 & -> & Hs8 & Hw & Hh8); [|exact Hm].
    apply wl_cons with (r := more) in Hw as (s9 & t9 & -> & Hs9 & Hw & Hh9); [|exact Hm].
    rewrite Forall_forall in Hwords. rewrite <- !app_assoc in *. cbn [count_any].
    rewrite (any_entry_app s2 m1) by (auto; apply Hwords; cbn; auto 10).
    rewrite (any_entry_app s3 m2) by (auto; apply Hwords; cbn; auto 10).
    rewrite (any_entry_app s4 c1) by (auto; apply Hwords; cbn; auto 10).
    rewrite (any_entry_app s5 c2) by (auto; apply Hwords; cbn; auto 10). cbn [or_err bind].
    rewrite (num_entry_app s6 px tpx) by auto. cbn [or_err bind].
    rewrite (num_entry_app s7 py tpy) by auto. cbn [or_err bind].
    rewrite (num_entry_app s8 pz tpz) by auto. cbn [or_err bind].
    rewrite (num_entry_app s9 e te) by auto. reflexivity.
  - destruct Hp as (ts & t & more & -> & Hw & Hm & Hst & Hne).
    rewrite Hsp by (eapply word_list_heads; eauto). cbn [or_err bind].
    apply wl_cons with (r := more) in Hw as (s1 & t1 & -> & Hs1 & Hw & Hh1); [|exact Hm].
    rewrite <- !app_assoc. rewrite (i32_entry_app s1 status ts) by auto. cbn [or_err bind].
    apply Z.eqb_neq in Hne. rewrite Hne. reflexivity.
Qed.

Lemma lhef_particles_lines : forall ls cs, Forall2 (fun line c => lhef_line double line (fst (fst c)) (snd (fst c)) (snd c)) ls cs -> forall b,
  lhef_particles double ls b = Ok (fold_left lhef_add cs b).
Proof.
  induction 1 as [|line c ls cs Hl Hls IH]; intros b; [reflexivity|]. cbn [lhef_particles]. rewrite (lhef_particle_line line c b Hl).
  cbn [bind fold_left]. apply IH.
Qed.

Definition plain (x : Z * (N * N * N * N)) : Z * FourVector N := (fst x, in_gev false (snd x)).
Lemma lhef_fold cs : forall b, fold_left lhef_add cs b = mkBuilder (b_weights b) (b_out b ++ map plain (lhef_outgoing cs)).
Proof.
  induction cs as [|[[id status] p] cs IH]; intros b; cbn [fold_left].
  - cbn. rewrite app_nil_r. destruct b; reflexivity.
  - rewrite IH. unfold lhef_outgoing. cbn [flat_map]. destruct p as [[[[e px] py] pz]|]; [|reflexivity].
    cbn [lhef_add]. destruct (Z.eqb status 1); [|reflexivity]. cbn [add_outgoing b_weights b_out app map]. rewrite <- app_assoc. reflexivity.
Qed.

Lemma build_spec b : cmp_on N D -> sort_ok sort -> Forall (part_in D) (b_out b) ->
  ev_weights (build sort b) = b_weights b /\ grouped (ev_out (build sort b)) /\ Permutation (b_out b) (particles_of (ev_out (build sort b))).
Proof.
  intros HD Hsort Hin. destruct (compress_spec HD Hsort (out := b_out b) Hin) as (Hg & _ & Hp). auto.
Qed.
Lemma plain_in out : Forall (fun x => mom_in D (in_gev false (snd x))) out -> Forall (part_in D) (map plain out).
Proof. intros H. apply Forall_forall. intros x Hx. apply in_map_iff in Hx as (y & <- & Hy). rewrite Forall_forall in H. exact (H y Hy). Qed.

Lemma weight_new mw (w : N) : add_weight mw (builder_new mw) w = mkBuilder [w] [].
Proof. destruct mw; reflexivity. Qed.

Lemma lhef_start lead tag s0 nup nv (t : text) : 
  Forall (fun c => whitespace c \/ c = "011"%char) lead -> tag <> [] -> ~ In newline tag ->
  heads (fun c => ~ (whitespace c \/ c = "011"%char)) tag -> Forall blank s0 -> nup <> [] -> Forall decimal_digit nup ->
  decimal_value nup = nv -> (nv < 2 ^ 32)%N -> heads whitespace t ->
  let record := trim_start (lead ++ tag ++ newline :: s0 ++ nup ++ t) in
  exists n, find [NL] record = Some n /\ u32_entry0 (skipn (1 + n) record) = Some (nv, t).
Proof.
  intros Hlead Htag Hnl Hhd Hs0 Hnup Hds Hv Hb Ht. cbv zeta.
  assert (Htrim : trim_start (lead ++ tag ++ newline :: s0 ++ nup ++ t) = tag ++ newline :: s0 ++ nup ++ t).
  { unfold trim_start. rewrite span_app; [reflexivity| |].
    - eapply Forall_impl; [|exact Hlead]. intros c. apply is_white_iff.
    - apply heads_app; [exact Htag|]. eapply heads_impl; [|exact Hhd]. intros c. apply is_white_false. }
  rewrite Htrim. exists (length tag). split; [apply find_char, Hnl|].
  replace (skipn (1 + length tag) (tag ++ newline :: s0 ++ nup ++ t)) with (s0 ++ nup ++ t).
  2:{ replace (1 + length tag) with (length (tag ++ [newline])) by (rewrite app_length; cbn; lia).
      replace (tag ++ newline :: s0 ++ nup ++ t) with ((tag ++ [newline]) ++ s0 ++ nup ++ t) by (rewrite <- app_assoc; reflexivity).
      symmetry; apply skipn_pre. }
  unfold u32_entry0, preceded0. destruct nup as [|d nup]; [congruence|]. assert (Hd : decimal_digit d) by (inversion Hds; auto).
  rewrite space0_app; [|exact Hs0|]. 
  - unfold u32. cbn [app]. rewrite (digit_of _ Hd).
    etransitivity; [exact (digits_from_app (d :: nup) Hds 0%N t (ws_heads_not_digit _ Ht) (eq_ind_r (fun x => (x < 2 ^ 32)%N) Hb Hv))|].
    change (dec_from 0 (d :: nup)) with (decimal_value (d :: nup)). rewrite Hv. reflexivity.
  - cbn. intros Hbl. apply (decimal_not_ws _ Hd), blank_ws, Hbl.
Qed.

Lemma lhef_read mw record w cs : cmp_on N D -> sort_ok sort ->
  lhef_record double record w cs -> 2 <= length cs ->
  Forall (fun x => mom_in D (in_gev false (snd x))) (lhef_outgoing cs) ->
  exists ev, parse_lhef double mw sort record = Ok ev /\ ev_id ev = 0 /\ ev_weights ev = [w] /\ grouped (ev_out ev) /\
    Permutation (map plain (lhef_outgoing cs)) (particles_of (ev_out ev)).
Proof.
  intros HD Hsort (lead & tag & s0 & nup & t & idrup & wt & more & ls & tail & -> & Hlead & Htag & Hnl & Hhd & Hs0 & Hnup & Hds & Hv & Hb & Hw & Hwt & Hm & Hmnl & Hls & (tail' & ->)) Hn Hin.
  cbn [app] in *. set (rest := more ++ concat (map (cons newline) ls) ++ newline :: tail').
  assert (Hr : heads whitespace rest).
  { apply heads_app_inv; [exact Hm|]. destruct ls; exact newline_ws. }
  destruct (lhef_start lead tag s0 nup _ (t ++ rest) Hlead Htag Hnl Hhd Hs0 Hnup Hds Hv Hb (word_list_heads _ _ _ Hw Hr)) as (n & Hfind & Hu).
  cbv zeta in Hfind, Hu. unfold parse_lhef. rewrite Hfind. cbn [or_err bind]. rewrite Hu. cbn [or_err bind].
  rewrite Nnat.Nat2N.id. replace (length cs <? 2) with false by (symmetry; apply Nat.ltb_ge; exact Hn).
  assert (Hwords := word_list_words _ _ Hw). inversion Hwords as [|? ? Hwi _]; subst.
  apply wl_cons with (r := rest) in Hw as (s1 & t1 & -> & Hs1 & Hw & Hh1); [|exact Hr].
  apply wl_cons with (r := rest) in Hw as (s2 & t2 & -> & Hs2 & Hw & Hh2); [|exact Hr]. inversion Hw; subst.
  rewrite <- !app_assoc in *. cbn [app] in *.
  rewrite any_entry_app by auto. cbn [or_err bind]. rewrite (num_entry_app s2 w wt) by auto. cbn [or_err bind].
  assert (Hlen : length ls = length cs) by (clear - Hls; induction Hls; cbn; congruence).
  assert (Hlines : firstn (length cs) (skipn 1 (lines rest)) = ls).
  { unfold rest. rewrite lines_app; [|clear - Hls; induction Hls as [|x y ? ? Hxy]; constructor; [apply Hxy|auto]|exact Hmnl]. cbn [skipn].
    rewrite <- Hlen. rewrite firstn_app, map_length, Nat.sub_diag. cbn [firstn]. rewrite app_nil_r.
    rewrite firstn_all2 by (unfold text in *; rewrite map_length; apply Nat.le_refl).
    clear - Hls. induction Hls as [|x y ls cs Hxy Hls IH]; [reflexivity|]. cbn [map]. rewrite IH. f_equal. apply strip_cr_id, Hxy. }
  rewrite Hlines. rewrite (lhef_particles_lines ls cs Hls). cbn [bind]. rewrite weight_new, lhef_fold. cbn [b_weights b_out app].
  eexists. split; [reflexivity|]. split; [reflexivity|]. apply (build_spec (mkBuilder [w] (map plain (lhef_outgoing cs))) HD Hsort). apply plain_in, Hin.
Qed.
Lemma lhef_read_few mw record w cs : lhef_record double record w cs -> length cs < 2 -> parse_lhef double mw sort record = Panic.
Proof.
  intros (lead & tag & s0 & nup & t & idrup & wt & more & ls & tail & -> & Hlead & Htag & Hnl & Hhd & Hs0 & Hnup & Hds & Hv & Hb & Hw & Hwt & Hm & Hmnl & Hls & (tail' & ->)) Hn.
  cbn [app] in *. set (rest := more ++ concat (map (cons newline) ls) ++ newline :: tail').
  assert (Hr : heads whitespace rest).
  { apply heads_app_inv; [exact Hm|]. destruct ls; exact newline_ws. }
  destruct (lhef_start lead tag s0 nup _ (t ++ rest) Hlead Htag Hnl Hhd Hs0 Hnup Hds Hv Hb (word_list_heads _ _ _ Hw Hr)) as (n & Hfind & Hu).
  cbv zeta in Hfind, Hu. unfold parse_lhef. rewrite Hfind. cbn [or_err bind]. rewrite Hu. cbn [or_err bind].
  rewrite Nnat.Nat2N.id. replace (length cs <? 2) with true by (symmetry; apply Nat.ltb_lt; exact Hn). reflexivity.
Qed.

(** *** STRIPPER XML *)
Definition xml_add (b : EventBuilder N) (c : Z * option (Z * (N * N * N * N))) : EventBuilder N :=
  match snd c with Some p => add_outgoing b (fst p) (in_gev false (snd p)) | None => b end.
Lemma xml_fold cs : forall b, fold_left xml_add cs b = mkBuilder (b_weights b) (b_out b ++ map plain (xml_outgoing cs)).
Proof.
  induction cs as [|[status [p|]] cs IH]; intros b; cbn [fold_left].
  - cbn. rewrite app_nil_r. destruct b; reflexivity.
  - rewrite IH. cbn. rewrite <- app_assoc. reflexivity.
  - rewrite IH. reflexivity.
Qed.

Lemma not_number_punct c : In c [","; "<"; "034"; ">"]%char -> ~ number_char c.
Proof.
  intros H. cbn in H. unfold number_char, decimal_digit.
  repeat (destruct H as [<-|H]; [cbn; intros H; repeat match goal with H : _ \/ _ |- _ => destruct H as [H|H] end; try lia; discriminate|]). contradiction.
Qed.
Lemma number_char_not_blank c : number_char c -> ~ blank c.
Proof. intros H Hb. apply (number_char_not_ws _ H), blank_ws, Hb. Qed.
Lemma num_heads x tok (r : text) : num_word double x tok -> heads (fun c => ~ blank c) (tok ++ r).
Proof.
  intros H. destruct (num_word_chars _ _ H) as [Hne Hc]. destruct tok as [|c tok]; [congruence|]. inversion Hc; subst. cbn. apply number_char_not_blank. auto.
Qed.
Lemma multispace c : (c = " " \/ c = "009" \/ c = "010" \/ c = "013")%char <-> is_multispace c = true.
Proof. unfold is_multispace. rewrite !orb_true_iff, !ceq_true. unfold SP, TAB, NL, CR. tauto. Qed.
Lemma span_multi s (r : text) : xml_space s -> heads (fun c => ~ (c = " " \/ c = "009" \/ c = "010" \/ c = "013")%char) r ->
  span is_multispace (s ++ r) = (s, r).
Proof.
  intros Hs Hr. apply span_app.
  - eapply Forall_impl; [|exact Hs]. intros c. apply multispace.
  - eapply heads_impl; [|exact Hr]. intros c Hc. destruct (is_multispace c) eqn:E; [|reflexivity]. apply multispace in E. contradiction.
Qed.
Lemma digit_punct c : In c [","; "034"]%char -> ~ decimal_digit c.
Proof. intros H. cbn in H. unfold decimal_digit. repeat (destruct H as [<-|H]; [cbn; lia|]). contradiction. Qed.

Lemma first_at_end_find (m t r : text) : first_at_end m t -> exists n, find m (t ++ r) = Some n /\ n + length m = length t.
Proof.
  intros [[a ->] Hfirst].
  destruct (find_occurs m ((a ++ m) ++ r)) as [n Hn]; [exists a, r; rewrite <- app_assoc; reflexivity|].
  exists n. split; [exact Hn|]. apply find_some in Hn as (x & y & Heq & <- & Hx).
  rewrite app_length. f_equal. rewrite <- app_assoc in Heq.
  apply app_split_mid in Heq as [(s & -> & H2)|(s & -> & H2)].
  - assert (Hs : exists y', s ++ m = m ++ y').
    { rewrite app_assoc in H2. apply app_split_mid in H2 as [(d & H3 & _)|(d & H3 & _)].
      - assert (d = []) as ->. { apply (f_equal (@length _)) in H3. rewrite !app_length in H3. destruct d; [reflexivity|cbn in H3; lia]. }
        exists []. rewrite app_nil_r in *. symmetry. exact H3.
      - exists d. exact H3. }
    destruct Hs as (y' & Hs). assert (y' = []) as ->.
    { apply (Hfirst x). rewrite <- Hs, <- app_assoc. reflexivity. }
    apply (f_equal (@length _)) in Hs. rewrite !app_length in Hs. rewrite app_length. cbn in Hs. lia.
  - destruct s as [|c s]; [rewrite app_nil_r; reflexivity|]. exfalso.
    apply (Hx a (c :: s) eq_refl); [discriminate|]. exists r. symmetry. exact H2.
Qed.

Lemma particle_start_app s0 (r : text) : xml_space s0 -> particle_start (s0 ++ lit "<p" ++ r) = Some r.
Proof.
  intros Hs. unfold particle_start. rewrite span_multi; [apply strip_prefix_app|exact Hs|]. cbn. intros H. repeat (destruct H as [H|H]); discriminate.
Qed.
Lemma particle_status_app s1 z tok (r : text) : Forall blank s1 -> int_word z tok -> heads (fun c => ~ decimal_digit c) r ->
  particle_status (s1 ++ lit "id=" ++ [QUOTE] ++ tok ++ r) = Some (z, r).
Proof.
  intros Hs Hz Hr. unfold particle_status. rewrite space0_app; [|exact Hs|cbn; intros [H|H]; discriminate].
  rewrite app_assoc, strip_prefix_app. apply i32_app; auto.
Qed.
Lemma then_comma_app x tok (r : text) : num_word double x tok -> then_comma (double (tok ++ ","%char :: r)) = Some (x, r).
Proof.
  intros H. rewrite (num_word_app x tok); [|exact H|]. 
  - cbn [then_comma]. reflexivity.
  - cbn. apply not_number_punct. cbn; auto.
Qed.
Lemma momentum_app e px py pz te tpx tpy tpz s2 s3 (r : text) : Forall blank s2 -> Forall blank s3 ->
  num_word double e te -> num_word double px tpx -> num_word double py tpy -> num_word double pz tpz ->
  heads (fun c => ~ number_char c /\ ~ blank c) r ->
  particle_momentum double (s2 ++ te ++ "," :: tpx ++ "," :: tpy ++ "," :: tpz ++ s3 ++ r)%char = Some (momentum e px py pz, r).
Proof.
  intros Hs2 Hs3 He Hx Hy Hz Hr. unfold particle_momentum. rewrite space0_app; [|exact Hs2|eapply num_heads, He].
  rewrite (then_comma_app e), (then_comma_app px), (then_comma_app py) by assumption.
  rewrite (num_word_app pz tpz); [|exact Hz|].
  - rewrite space0_app; [reflexivity|exact Hs3|]. eapply heads_impl; [|exact Hr]. intros c Hc; apply Hc.
  - apply heads_app_inv; [|eapply heads_impl; [|exact Hr]; intros c Hc; apply Hc]. destruct Hs3 as [|c s3 Hc Hs3]; [exact I|]. cbn. intros Hn. exact (number_char_not_blank _ Hn Hc).
Qed.

Lemma blank_ascii c : blank c -> (128 <=? N_of_ascii c)%N = false.
Proof. intros [->| ->]; reflexivity. Qed.

Lemma xml_particle_step t status p (r : text) fuel b : xml_particle double blanks t status p ->
  stripper_particles double (S fuel) (t ++ r) b = stripper_particles double fuel r (xml_add b (status, p)).
Proof.
  intros (s0 & s1 & ts & rest & -> & Hs0 & Hs1 & Hst & Hp).
  cbn [stripper_particles]. rewrite <- !app_assoc.
  pose proof (particle_start_app s0 (s1 ++ lit "id=" ++ [QUOTE] ++ ts ++ rest ++ r) Hs0) as Hps.
  change (list_ascii_of_string "<p") with (lit "<p"). change (list_ascii_of_string "id=") with (lit "id="). change ["034"%char] with [QUOTE].
  rewrite Hps. clear Hps.
  destruct p as [[id [[[e px] py] pz]]|].
  - destruct Hp as (-> & tid & te & tpx & tpy & tpz & s2 & s3 & -> & Hs2 & Hs3 & Hid & He & Hx & Hy & Hz).
    pose proof (fun r0 => particle_status_app s1 0 ts r0 Hs1 Hst) as Hpst. cbn [app] in Hpst |- *.
    rewrite Hpst by (cbn; apply digit_punct; cbn; auto). cbn [or_err bind]. change (negb (0 =? 0)%Z) with false. cbn iota.
    unfold particle_id, chr. cbn [strip_prefix]. rewrite ceq_refl. rewrite <- app_assoc.
    rewrite (i32_app id tid) by (auto; cbn; apply digit_punct; cbn; auto). cbn [or_err bind].
    cbn [app strip_prefix]. change (ceq QUOTE "034") with true. change (ceq ">" ">") with true. cbn iota. cbn [or_err bind].
    destruct Hs2 as [Hne Hs2]. destruct s2 as [|c s2]; [congruence|]. inversion Hs2 as [|? ? Hc Hs2']; subst.
    cbn [app]. rewrite (blank_ascii _ Hc).
    pose proof (momentum_app e px py pz te tpx tpy tpz s2 s3 (lit "</p>" ++ r) Hs2' Hs3 He Hx Hy Hz) as Hmom.
    repeat (rewrite <- app_assoc; cbn [app]).
    change (list_ascii_of_string "</p>") with (lit "</p>").
    rewrite Hmom. 2:{ cbn. split; [apply not_number_punct; cbn; auto|intros [H|H]; discriminate]. }
    cbn [or_err bind]. rewrite strip_prefix_app. reflexivity.
  - destruct Hp as (Hne & Hh & Hend).
    pose proof (particle_status_app s1 status ts (rest ++ r) Hs1 Hst) as Hpst.
    rewrite Hpst. 2:{ destruct rest; [|exact Hh]. exfalso. destruct Hend as [[a Ha] _]. destruct a; discriminate. }
    cbn [or_err bind]. apply Z.eqb_neq in Hne. rewrite Hne. cbn [negb].
    destruct (first_at_end_find (lit "</p>") rest r Hend) as (n & Hn & Hl). rewrite Hn. cbn [or_err bind].
    change (length (lit "</p>")) with 4 in Hl. rewrite Hl. rewrite skipn_pre. reflexivity.
Qed.

Lemma xml_particles_app ts cs : Forall2 (fun t c => xml_particle double blanks t (fst c) (snd c)) ts cs -> forall tail fuel b,
  particle_start tail = None -> length ts <= fuel ->
  stripper_particles double fuel (concat ts ++ tail) b = Ok (fold_left xml_add cs b).
Proof.
  induction 1 as [|t c ts cs Ht Hts IH]; intros tail fuel b Htail Hf.
  - cbn [concat app fold_left]. destruct fuel; cbn [stripper_particles]; rewrite Htail; reflexivity.
  - destruct fuel as [|fuel]; [cbn in Hf; lia|]. cbn [concat]. rewrite <- app_assoc.
    rewrite (xml_particle_step t (fst c) (snd c)) by exact Ht. cbn [fold_left]. destruct c. apply IH; [exact Htail|cbn in Hf; lia].
Qed.
Lemma xml_particle_length t status p : xml_particle double blanks t status p -> 1 <= length t.
Proof. intros (s0 & s1 & ts & rest & -> & _). rewrite !app_length. cbn. lia. Qed.

Lemma xml_read mw record w cs : cmp_on N D -> sort_ok sort ->
  xml_record double blanks record w cs ->
  Forall (fun x => mom_in D (in_gev false (snd x))) (xml_outgoing cs) ->
  exists ev, parse_stripper_xml double mw sort record = Ok ev /\ ev_id ev = 0 /\ ev_weights ev = [w] /\ grouped (ev_out ev) /\
    Permutation (map plain (xml_outgoing cs)) (particles_of (ev_out ev)).
Proof.
  intros HD Hsort (s0 & wt & attr & ts & tail & -> & Hs0 & Hw & Hattr & Hts & (s & more & -> & Hs & Hm & Hnp)) Hin.
  unfold parse_stripper_xml.
  pose proof (weight_start_app s0 (wt ++ ["034"%char] ++ attr ++ [">"%char] ++ concat ts ++ s ++ more) Hs0) as Hws.
  cbn [app] in Hws |- *. change (list_ascii_of_string "w=") with (lit "w="). change "034"%char with QUOTE in *. rewrite Hws. cbn [or_err bind].
  rewrite (num_word_app w wt); [|exact Hw|cbn; exact quote_not_number]. cbn [or_err bind].
  change (QUOTE :: attr ++ ">" :: concat ts ++ s ++ more)%char with ((QUOTE :: attr) ++ ">"%char :: concat ts ++ s ++ more).
  rewrite find_char by (intros [H|H]; [discriminate|exact (Hattr H)]). cbn [or_err bind].
  replace (skipn (length (QUOTE :: attr) + 1) ((QUOTE :: attr) ++ ">"%char :: concat ts ++ s ++ more)) with (concat ts ++ s ++ more).
  2:{ replace (length (QUOTE :: attr) + 1) with (length ((QUOTE :: attr) ++ [">"%char])) by (rewrite app_length; reflexivity).
      replace ((QUOTE :: attr) ++ ">"%char :: concat ts ++ s ++ more) with (((QUOTE :: attr) ++ [">"%char]) ++ concat ts ++ s ++ more) by (rewrite <- app_assoc; reflexivity).
      symmetry; apply skipn_pre. }
  rewrite (xml_particles_app ts cs Hts).
  - cbn [bind]. rewrite weight_new, xml_fold. cbn [b_weights b_out app].
    eexists. split; [reflexivity|]. split; [reflexivity|]. apply (build_spec (mkBuilder [w] (map plain (xml_outgoing cs))) HD Hsort). apply plain_in, Hin.
  - unfold particle_start. rewrite span_multi by auto. cbn [snd]. apply strip_prefix_none. exact Hnp.
  - rewrite app_length. clear - Hts HT. induction Hts as [|t c ts cs Ht Hts IH]; [cbn; lia|]. cbn [concat length]. rewrite app_length.
    apply xml_particle_length in Ht. lia.
Qed.
End Records.
