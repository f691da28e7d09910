(** Rewriting whole LHEF and STRIPPER XML files and reading them again. *)
From Verif Require Import Base BaseProofs Num ModelEvent ModelText SpecText SpecFormats TextProofs ReaderProofs ParserProofs
  ModelHepMC ModelLHEF ModelStripper FormatProofs FileProofs.
From Coq Require Import Lia.

Lemma first_at_end_unique (m t t' x x' : text) : m <> [] ->
  first_at_end m t -> first_at_end m t' -> t ++ x = t' ++ x' -> t = t' /\ x = x'.
Proof.
  intros Hm [[a Ha] Hf] [[a' Ha'] Hf'] H.
  destruct (app_split_mid _ _ _ _ H) as [(s & Hs & Hq)|(s & Hs & Hq)].
  - assert (s = []) as -> by (apply (Hf a' s); rewrite Hs, Ha', <- app_assoc; reflexivity). rewrite app_nil_r in Hs. auto.
  - assert (s = []) as -> by (apply (Hf' a s); rewrite Hs, Ha, <- app_assoc; reflexivity). rewrite app_nil_r in Hs. auto.
Qed.

Lemma occurs_app_l (m a b : text) : occurs m a -> occurs m (a ++ b).
Proof. intros (x & y & ->). exists x, (y ++ b). rewrite <- !app_assoc. reflexivity. Qed.
Lemma occurs_app_r (m a b : text) : occurs m b -> occurs m (a ++ b).
Proof. intros (x & y & ->). exists (a ++ x), y. rewrite <- !app_assoc. reflexivity. Qed.

Lemma lhef_records_unique : forall rs rs' tail tail',
  (forall r, In r rs -> first_at_end event_end r) -> (forall r, In r rs' -> first_at_end event_end r) ->
  ~ occurs event_end tail -> ~ occurs event_end tail' ->
  concat rs ++ tail = concat rs' ++ tail' -> rs = rs' /\ tail = tail'.
Proof.
  assert (Hocc : forall r x, first_at_end event_end r -> occurs event_end (r ++ x)).
  { intros r x [[a ->] _]. apply occurs_app_l. exists a, []. rewrite app_nil_r. reflexivity. }
  induction rs as [|r rs IH]; intros [|r' rs'] tail tail' H H' Ht Ht' E; cbn [concat] in E.
  - auto.
  - exfalso. apply Ht. cbn in E. rewrite E, <- app_assoc. apply Hocc, H'. left. reflexivity.
  - exfalso. apply Ht'. cbn in E. rewrite <- E, <- app_assoc. apply Hocc, H. left. reflexivity.
  - rewrite <- !app_assoc in E. apply first_at_end_unique with (m := event_end) in E; [|discriminate|apply H; left; reflexivity|apply H'; left; reflexivity].
    destruct E as [-> E]. destruct (IH rs' tail tail') as [-> ->]; auto; intros z Hz; [apply H|apply H']; right; exact Hz.
Qed.

Lemma lhef_parts_unique file h1 r1 t1 h2 r2 t2 : lhef_parts file h1 r1 t1 -> lhef_parts file h2 r2 t2 -> h1 = h2 /\ r1 = r2 /\ t1 = t2.
Proof.
  intros (E1 & F1 & R1 & T1) (E2 & F2 & R2 & T2). rewrite E1 in E2.
  apply first_at_end_unique with (m := init_end) in E2; auto; [|discriminate]. destruct E2 as [-> E2].
  apply lhef_records_unique in E2; tauto.
Qed.

Lemma lhef_read_parts file h rs tail : lhef_parts file h rs tail ->
  rd_header (lhef_open file) = h /\ lhef_records (lhef_open file) = (if forallb utf8 rs then Some rs else None).
Proof.
  intros Hp. destruct (lhef_records_spec file) as (rs' & tail' & Hp' & Hr).
  - destruct Hp as (-> & [[a ->] _] & _). apply occurs_app_l. exists a, []. rewrite app_nil_r. reflexivity.
  - destruct (lhef_parts_unique _ _ _ _ _ _ _ Hp Hp') as (-> & -> & _). auto.
Qed.

Section LHEFLoop.
Context (N : NumOps) (double : parser N) (show : N -> text).
Lemma lhef_loop mw file header : forall ws fuel src out n records,
  lhef_rest fuel (mkReader file src header) = Some records ->
  lhef_update_loop show mw ws src out n =
    bind (update_list (lhef_update show mw) ws records)
      (fun l => Ok (out ++ concat l ++ (if length ws <=? length records then lhef_footer else []), n + length l)).
Proof.
  induction ws as [|w ws IH]; intros fuel src out n records H; cbn [lhef_update_loop update_list].
  - cbn. rewrite Nat.add_0_r. reflexivity.
  - destruct fuel as [|fuel]; [discriminate|]. cbn [lhef_rest] in H. unfold lhef_next in H. cbn [rd_source rd_file rd_header] in H.
    destruct (lhef_read_raw src) as [|record rest|]; [injection H as <-|destruct (lhef_rest fuel _) as [l|] eqn:E; [|discriminate]; injection H as <-|discriminate].
    + cbn. rewrite app_nil_r, Nat.add_0_r. reflexivity.
    + destruct (lhef_update show mw w record) as [r'|e|]; cbn [bind]; try reflexivity.
      rewrite (IH _ _ _ _ _ E). destruct (update_list (lhef_update show mw) ws l) as [l'|e|]; cbn [bind]; try reflexivity.
      cbn [concat length Nat.leb]. rewrite <- !app_assoc. do 2 f_equal. lia.
Qed.
Lemma lhef_rewrite_list mw ws file records : lhef_records (lhef_open file) = Some records ->
  lhef_rewrite show mw ws file =
    bind (update_list (lhef_update show mw) ws records)
      (fun l => Ok (rd_header (lhef_open file) ++ concat l ++ (if length ws <=? length records then lhef_footer else []), length l)).
Proof.
  unfold lhef_records, lhef_rewrite, lhef_rewind, lhef_open. destruct (lhef_init file) as [h s] eqn:E. cbn [rd_file rd_source rd_header].
  rewrite E. cbn [rd_source rd_header]. intros H. exact (lhef_loop mw file h ws _ s h 0 records H).
Qed.
End LHEFLoop.

(** an occurrence of a marker cannot reach into a piece without its first character, which
    starts with a character not in the marker *)
Lemma occurs_gap (m0 : ascii) m (a b u v x : text) c : ~ In c (m0 :: m) -> ~ In m0 x ->
  a ++ c :: x ++ b = u ++ (m0 :: m) ++ v ->
  (exists v', a = u ++ (m0 :: m) ++ v' /\ v = v' ++ c :: x ++ b) \/ (exists u', b = u' ++ (m0 :: m) ++ v /\ u = a ++ c :: x ++ u').
Proof.
  intros Hc Hx H. destruct (app_split_mid _ _ _ _ H) as [(s & Hs & Hq)|(s & Hs & Hq)].
  - (* a = u ++ s *) subst a. destruct (app_split_mid _ _ _ _ Hq) as [(s2 & Hs2 & Hq2)|(s2 & Hs2 & Hq2)].
    + (* m = s ++ s2, c.. = s2 ++ v *) destruct s2 as [|d s2].
      * rewrite app_nil_r in Hs2. subst s. left. exists []. rewrite app_nil_r. cbn in *. auto.
      * cbn in Hq2. injection Hq2 as <- _. exfalso. apply Hc. rewrite Hs2. apply in_or_app. right. left. reflexivity.
    + left. exists s2. rewrite Hs2. split; [reflexivity|exact Hq2].
  - (* u = a ++ s ; c :: x ++ b = s ++ m ++ v *) right.
    destruct s as [|d s]; [cbn in Hq; injection Hq as -> _; exfalso; apply Hc; left; reflexivity|].
    cbn in Hq. injection Hq as <- Hq. destruct (app_split_mid _ _ _ _ Hq) as [(s2 & Hs2 & Hq2)|(s2 & Hs2 & Hq2)].
    + destruct s2 as [|d s2].
      * rewrite app_nil_r in Hs2. subst s. exists []. rewrite app_nil_r. cbn in *. auto.
      * cbn in Hq2. injection Hq2 as <- _. exfalso. apply Hx. rewrite Hs2. apply in_or_app. right. left. reflexivity.
    + subst s. exists s2. split; [exact Hq2|]. rewrite Hs. reflexivity.
Qed.

Lemma last_white (x y t1 t2 : text) b c : whitespace b -> whitespace c ->
  Forall (fun c => ~ whitespace c) t1 -> Forall (fun c => ~ whitespace c) t2 -> x ++ b :: t1 = y ++ c :: t2 -> b = c.
Proof.
  intros Hb Hc H1 H2 E. rewrite Forall_forall in H1, H2. destruct (app_split_mid _ _ _ _ E) as [(s & Hs & Hq)|(s & Hs & Hq)].
  - destruct s as [|d s]; cbn in Hq; [congruence|]. injection Hq as _ Hq. exfalso. apply (H2 b); [|exact Hb]. rewrite Hq.
    apply in_or_app. right. left. reflexivity.
  - destruct s as [|d s]; cbn in Hq; [congruence|]. injection Hq as _ Hq. exfalso. apply (H1 c); [|exact Hc]. rewrite Hq.
    apply in_or_app. right. left. reflexivity.
Qed.

Lemma lt_not_number : ~ number_char "<"%char.
Proof.
  unfold number_char, decimal_digit. cbn. intros H.
  repeat match goal with H : _ \/ _ |- _ => destruct H as [H|H] end; try lia; discriminate.
Qed.
Lemma blank_not_end c : blank c -> ~ In c event_end.
Proof. intros [->| ->]; vm_compute; intuition discriminate. Qed.
Lemma end_not_white : Forall (fun c => ~ whitespace c) event_end.
Proof.
  apply Forall_forall. intros c H Hw. revert H. destruct Hw as [[->| ->]|[->|[->| ->]]]; vm_compute; intuition discriminate.
Qed.

Section ReplacedLHEF.
Context (N : NumOps) (D : N -> Prop) (double : parser N) (show : N -> text) (sort : sorter).
Hypothesis HT : number_text N D double show.

Lemma lhef_replaced_record before record record' w : D w -> entry_replaced before (show w) record record' ->
  utf8 record = true -> first_at_end event_end record -> finishes_with (NL :: event_end) record ->
  utf8 record' = true /\ first_at_end event_end record' /\ finishes_with (NL :: event_end) record'.
Proof.
  intros Hw (p & c & s & tok & post & -> & -> & _ & Hc & Hs & Ht & Hpost) Hu [_ Hf] Hnl.
  destruct (nt_show _ _ _ _ HT w Hw) as [Hsne Hsn].
  assert (Hca : is_ascii c) by (apply whitespace_ascii; left; exact Hc).
  assert (Hlt : ~ In "<"%char (show w)).
  { intros H. rewrite Forall_forall in Hsn. exact (lt_not_number (Hsn _ H)). }
  assert (Hpost' : exists q, post = q ++ NL :: event_end).
  { destruct Hnl as [a Ha].
    replace (p ++ c :: s ++ tok ++ post) with ((p ++ c :: s ++ tok) ++ post) in Ha by (rewrite <- !app_assoc; cbn; rewrite <- !app_assoc; reflexivity).
    destruct (app_split_mid _ _ _ _ Ha) as [(x & Hx & Hq)|(x & Hx & Hq)]; [|exists x; exact Hq].
    destruct x as [|d x]; [exists []; exact (eq_sym Hq)|]. cbn in Hq. injection Hq as <- Hq. exfalso.
    assert (post = []) as ->.
    { destruct post as [|d post]; [reflexivity|]. exfalso. pose proof end_not_white as H. unfold event_end in H. 
      change (list_ascii_of_string "</event>") with event_end in H. rewrite Forall_forall in H. apply (H d); [|exact Hpost]. 
      replace event_end with (x ++ d :: post) by (symmetry; exact Hq). apply in_or_app. right. left. reflexivity. }
    rewrite app_nil_r in Hq. subst x. destruct Ht as [_ Ht].
    assert (Hlast : exists z b, c :: s = z ++ [b] /\ blank b).
    { destruct (exists_last (l := c :: s)) as (z & b & E); [discriminate|]. exists z, b. split; [exact E|].
      assert (Hall : Forall blank (c :: s)) by (constructor; assumption). rewrite E in Hall. apply Forall_app in Hall as [_ Hall]. apply (Forall_inv Hall). }
    destruct Hlast as (z & b & E & Hb).
    replace (p ++ c :: s ++ tok) with ((p ++ z) ++ b :: tok) in Hx.
    2:{ change (c :: s ++ tok) with ((c :: s) ++ tok). rewrite E, <- !app_assoc. reflexivity. }
    assert (b = NL).
    { eapply (last_white _ _ tok event_end b NL); [left; exact Hb|exact newline_ws|exact Ht|exact end_not_white|exact Hx]. }
    subst b. exact (newline_not_blank Hb). }
  destruct Hpost' as [q ->].
  split; [|split].
  - replace (p ++ c :: s ++ tok ++ q ++ NL :: event_end) with ((p ++ c :: s ++ tok) ++ q ++ NL :: event_end) in Hu by (rewrite <- !app_assoc; cbn; rewrite <- !app_assoc; reflexivity).
    replace (p ++ c :: show w ++ q ++ NL :: event_end) with ((p ++ c :: show w) ++ q ++ NL :: event_end) by (rewrite <- !app_assoc; reflexivity).
    rewrite utf8_heads in * by exact Hpost. apply andb_true_iff in Hu as [Hu1 Hu2]. rewrite Hu2, andb_true_r.
    rewrite utf8_cut in * by exact Hca. apply andb_true_iff in Hu1 as [Hu1 _]. rewrite Hu1. rewrite utf8_cons by exact Hca.
    rewrite <- (app_nil_r (show w)). rewrite utf8_ascii_app; [reflexivity|]. eapply Forall_impl; [|exact Hsn]. exact number_ascii.
  - split.
    + exists (p ++ c :: show w ++ q ++ [NL]). rewrite <- !app_assoc. cbn. rewrite <- !app_assoc. reflexivity.
    + intros u v H. destruct (occurs_gap "<" (tl event_end) p (q ++ NL :: event_end) u v (show w) c (blank_not_end c Hc) Hlt H) as [(v' & Hp & Hv)|(u' & Hb & _)].
      * exfalso. specialize (Hf u (v' ++ c :: s ++ tok ++ q ++ NL :: event_end)). rewrite Hp in Hf.
        assert (E : v' ++ c :: s ++ tok ++ q ++ NL :: event_end = []) by (apply Hf; rewrite <- !app_assoc; reflexivity).
        destruct v'; discriminate.
      * apply (Hf (p ++ c :: s ++ tok ++ u') v). rewrite Hb, <- !app_assoc. cbn. rewrite <- !app_assoc. reflexivity.
  - exists (p ++ c :: show w ++ q). rewrite <- !app_assoc. cbn. rewrite <- !app_assoc. reflexivity.
Qed.

Lemma lhef_file mw file ws records :
  occurs init_end file -> lhef_records (lhef_open file) = Some records -> length ws = length records -> Forall D ws ->
  (forall r, In r records -> finishes_with (newline :: event_end) r) ->
  (forall r, In r records -> exists ev, parse_lhef double mw sort r = Ok ev) ->
  exists file' records', lhef_rewrite show mw (map (fun w => [w]) ws) file = Ok (file', length records) /\
    file' = rd_header (lhef_open file) ++ concat records' ++ lhef_footer /\
    rd_header (lhef_open file') = rd_header (lhef_open file) /\
    lhef_records (lhef_open file') = Some records' /\ length records' = length records /\
    forall i w r r', nth_error ws i = Some w -> nth_error records i = Some r -> nth_error records' i = Some r' ->
      entry_replaced lhef_before_weight (show w) r r' /\
      exists ev, parse_lhef double mw sort r = Ok ev /\ parse_lhef double mw sort r' = Ok (mkEvent (ev_id ev) [w] (ev_out ev)).
Proof.
  intros Hocc Hrec Hlen HD Hnl Hparse.
  destruct (lhef_records_spec file Hocc) as (rs & tail & Hparts & Hrs). rewrite Hrec in Hrs.
  destruct (forallb utf8 rs) eqn:Hu; [|discriminate]. injection Hrs as ->. rewrite forallb_forall in Hu.
  destruct Hparts as (Hfile & Hh & Hr & Ht).
  set (P := fun (wl : list N) r r' => exists w, wl = [w] /\ D w /\ entry_replaced lhef_before_weight (show w) r r' /\
    exists ev, parse_lhef double mw sort r = Ok ev /\ parse_lhef double mw sort r' = Ok (mkEvent (ev_id ev) [w] (ev_out ev))).
  destruct (update_list_forall2 (lhef_update show mw) P (map (fun w => [w]) ws) rs) as (l & Hl & Hll & Hall).
  { rewrite map_length. exact Hlen. }
  { intros wl r Hwl Hr'. apply in_map_iff in Hwl as (w & <- & Hw). rewrite Forall_forall in HD.
    destruct (Hparse r Hr') as [ev Hev]. destruct (lhef_rewrite_one N D double show sort HT mw r ev w Hev (HD _ Hw)) as (r' & H1 & H2 & H3).
    exists r'. split; [exact H1|]. exists w. split; [reflexivity|]. split; [apply HD; exact Hw|]. split; [exact H2|]. exists ev. auto. }
  assert (Hnth : forall i r', nth_error l i = Some r' -> exists w r, nth_error ws i = Some w /\ nth_error rs i = Some r /\ P [w] r r').
  { intros i r' Hr'. assert (Hi : i < length l) by (apply nth_error_Some; congruence).
    destruct (nth_error ws i) as [w|] eqn:Ew; [|apply nth_error_None in Ew; unfold text in *; lia].
    destruct (nth_error rs i) as [r|] eqn:Er; [|apply nth_error_None in Er; unfold text in *; lia].
    exists w, r. split; [reflexivity|]. split; [reflexivity|]. apply (Hall i); auto. apply map_nth_error with (f := fun w => [w]). exact Ew. }
  assert (Hgood : forall r', In r' l -> utf8 r' = true /\ first_at_end event_end r').
  { intros r' Hin. destruct (In_nth_error _ _ Hin) as [i Hr']. destruct (Hnth i r' Hr') as (w & r & Ew & Er & (w' & E1 & Hw & Hrep & _)). injection E1 as <-.
    assert (Hin' : In r rs) by (eapply nth_error_In; exact Er).
    destruct (lhef_replaced_record lhef_before_weight r r' w Hw Hrep (Hu _ Hin') (Hr _ Hin') (Hnl _ Hin')) as (G1 & G2 & _). auto. }
  set (file' := rd_header (lhef_open file) ++ concat l ++ lhef_footer).
  assert (Hparts' : lhef_parts file' (rd_header (lhef_open file)) l lhef_footer).
  { split; [reflexivity|]. split; [exact Hh|]. split; [intros r' Hr'; apply Hgood; exact Hr'|].
    apply find_none. vm_compute. reflexivity. }
  destruct (lhef_read_parts file' _ l _ Hparts') as [Hh' Hr'].
  exists file', l. split; [|split; [reflexivity|split; [exact Hh'|split; [|split; [exact Hll|]]]]].
  - rewrite (lhef_rewrite_list N show mw _ file rs Hrec). rewrite Hl. cbn [bind]. rewrite map_length, Hlen, Nat.leb_refl, Hll. reflexivity.
  - rewrite Hr'. replace (forallb utf8 l) with true; [reflexivity|]. symmetry. apply forallb_forall. intros z Hz. apply Hgood. exact Hz.
  - intros i w r r' Ew Er Er'. destruct (Hnth i r' Er') as (w2 & r2 & Ew2 & Er2 & (w3 & E3 & _ & Hrep & Hev)).
    pose proof (eq_trans (eq_sym Ew) Ew2) as Ew3. pose proof (eq_trans (eq_sym Er) Er2) as Er3. injection Ew3 as <-. injection Er3 as <-. injection E3 as <-. auto.
Qed.
End ReplacedLHEF.
