(** Rewriting whole files, one record at a time, and reading them again. *)
From Verif Require Import Base BaseProofs Num ModelEvent ModelText SpecText SpecFormats SpecHepMC TextProofs ReaderProofs ParserProofs
  ModelHepMC HepMCProofs HepMCProofs2 ModelLHEF ModelStripper FormatProofs.
From Coq Require Import Lia.

(** updating the records one after the other *)
Fixpoint update_list {A} (f : A -> text -> res text) (ws : list A) (records : list text) : res (list text) :=
  match ws, records with
  | w :: ws, r :: records => bind (f w r) (fun r' => bind (update_list f ws records) (fun l => Ok (r' :: l)))
  | _, _ => Ok []
  end.

Lemma update_list_forall2 {A} (f : A -> text -> res text) (P : A -> text -> text -> Prop) : forall ws records,
  length ws = length records -> (forall w r, In w ws -> In r records -> exists r', f w r = Ok r' /\ P w r r') ->
  exists l, update_list f ws records = Ok l /\ length l = length records /\
    forall i w r r', nth_error ws i = Some w -> nth_error records i = Some r -> nth_error l i = Some r' -> P w r r'.
Proof.
  induction ws as [|w ws IH]; intros [|r records] Hl H; try discriminate.
  - exists []. repeat split. intros [|i] ? ? ? Hw; discriminate.
  - cbn [update_list]. destruct (H w r (or_introl eq_refl) (or_introl eq_refl)) as (r1 & -> & HP). cbn [bind].
    destruct (IH records) as (l & -> & Hll & Hall); [cbn in Hl; lia|intros; apply H; right; auto|].
    exists (r1 :: l). split; [reflexivity|]. split; [cbn; lia|].
    intros [|i] w' r' r2; cbn; [intros E1 E2 E3; injection E1 as <-; injection E2 as <-; injection E3 as <-; exact HP|apply Hall].
Qed.

(** *** HepMC *)
Section HepMC.
Context (N : NumOps) (double : parser N) (show : N -> text).

Lemma hepmc_loop mw names file header : forall ws fuel src out n records,
  hepmc_rest fuel (mkReader file src header) = Some records ->
  hepmc_update_loop show mw names ws src out n =
    bind (update_list (hepmc_update show mw names) ws records) (fun l => Ok (out ++ concat l, n + length l)).
Proof.
  induction ws as [|w ws IH]; intros fuel src out n records H; cbn [hepmc_update_loop update_list].
  - cbn. rewrite app_nil_r, Nat.add_0_r. reflexivity.
  - destruct fuel as [|fuel]; [discriminate|]. cbn [hepmc_rest] in H. unfold hepmc_next in H. cbn [rd_source rd_file rd_header] in H.
    destruct (hepmc_read_raw src) as [|record rest|]; [injection H as <-|destruct (hepmc_rest fuel _) as [l|] eqn:E; [|discriminate]; injection H as <-|discriminate].
    + cbn. rewrite app_nil_r, Nat.add_0_r. reflexivity.
    + destruct (hepmc_update show mw names w record) as [r'|e|]; cbn [bind]; try reflexivity.
      rewrite (IH _ _ _ _ _ E). destruct (update_list (hepmc_update show mw names) ws l) as [l'|e|]; cbn [bind]; try reflexivity.
      cbn [concat length]. rewrite <- app_assoc. do 2 f_equal. lia.
Qed.
Lemma hepmc_rewrite_list mw names ws file records : hepmc_records (hepmc_open file) = Some records ->
  hepmc_rewrite show mw names ws file =
    bind (update_list (hepmc_update show mw names) ws records) (fun l => Ok (rd_header (hepmc_open file) ++ concat l, length l)).
Proof.
  unfold hepmc_records, hepmc_rewrite, hepmc_rewind, hepmc_open. destruct (hepmc_init file) as [h s] eqn:E. cbn [rd_file rd_source rd_header].
  rewrite E. cbn [rd_source rd_header]. intros H. exact (hepmc_loop mw names file h ws _ s h 0 records H).
Qed.
End HepMC.

(** the parts of a HepMC file are unique *)
Lemma pieces_unique : forall xs ys : list text,
  concat xs = concat ys -> xs <> [] -> ys <> [] ->
  (forall x, In x xs -> ~ occurs event_mark x) -> (forall y, In y ys -> ~ occurs event_mark y) ->
  (forall x, In x (tl xs) -> begins_with ["E"%char] x) -> (forall y, In y (tl ys) -> begins_with ["E"%char] y) ->
  all_but_last (finishes_with [NL]) xs -> all_but_last (finishes_with [NL]) ys -> xs = ys.
Proof.
  assert (Hlt : forall (x y : text) xs s, y = x ++ s -> s <> [] -> xs <> [] -> (forall z, In z xs -> begins_with ["E"%char] z) ->
    finishes_with [NL] x -> begins_with s (concat xs) -> ~ occurs event_mark y -> False).
  { intros x y xs s -> Hs Hxs Hb [a ->] Hc Hno. destruct xs as [|z xs]; [congruence|]. destruct (Hb z (or_introl eq_refl)) as [b ->].
    destruct s as [|c s]; [congruence|]. destruct Hc as [q Hc]. cbn in Hc. injection Hc as <- _.
    apply Hno. exists a, s. rewrite <- !app_assoc. reflexivity. }
  induction xs as [|x xs IH]; intros ys Heq Hx Hy Hox Hoy Hbx Hby Hlx Hly; [congruence|].
  destruct ys as [|y ys]; [congruence|]. cbn [concat tl] in *.
  destruct (app_split_mid _ _ _ _ Heq) as [(s & Hs & Hq)|(s & Hs & Hq)].
  - destruct s as [|c s].
    + rewrite app_nil_r in Hs. subst y. cbn in Hq. f_equal.
      destruct xs as [|x2 xs], ys as [|y2 ys]; [reflexivity| | |].
      * exfalso. destruct (Hby y2 (or_introl eq_refl)) as [b ->]. cbn in Hq. discriminate.
      * exfalso. destruct (Hbx x2 (or_introl eq_refl)) as [b ->]. cbn in Hq. discriminate.
      * apply IH; [auto|discriminate|discriminate| | | | | |].
        -- intros z Hz. apply Hox. right. exact Hz.
        -- intros z Hz. apply Hoy. right. exact Hz.
        -- intros z Hz. apply Hbx. right. exact Hz.
        -- intros z Hz. apply Hby. right. exact Hz.
        -- intros a z b E. apply (Hlx (x :: a) z b). rewrite E. reflexivity.
        -- intros a z b E. apply (Hly (x :: a) z b). rewrite E. reflexivity.
    + exfalso. destruct ys as [|y2 ys]; [destruct s; discriminate|].
      apply (Hlt y x (y2 :: ys) (c :: s) Hs); auto; [discriminate|discriminate| | |].
      * apply (Hly [] y (y2 :: ys) eq_refl). discriminate.
      * exists (concat xs). exact Hq.
      * apply Hox. left. reflexivity.
  - destruct s as [|c s].
    + rewrite app_nil_r in Hs. subst y. cbn in Hq. f_equal.
      destruct xs as [|x2 xs], ys as [|y2 ys]; [reflexivity| | |].
      * exfalso. destruct (Hby y2 (or_introl eq_refl)) as [b ->]. cbn in Hq. discriminate.
      * exfalso. destruct (Hbx x2 (or_introl eq_refl)) as [b ->]. cbn in Hq. discriminate.
      * apply IH; [auto|discriminate|discriminate| | | | | |].
        -- intros z Hz. apply Hox. right. exact Hz.
        -- intros z Hz. apply Hoy. right. exact Hz.
        -- intros z Hz. apply Hbx. right. exact Hz.
        -- intros z Hz. apply Hby. right. exact Hz.
        -- intros a z b E. apply (Hlx (x :: a) z b). rewrite E. reflexivity.
        -- intros a z b E. apply (Hly (x :: a) z b). rewrite E. reflexivity.
    + exfalso. destruct xs as [|x2 xs]; [destruct s; discriminate|].
      apply (Hlt x y (x2 :: xs) (c :: s) Hs); auto; [discriminate|discriminate| | |].
      * apply (Hlx [] x (x2 :: xs) eq_refl). discriminate.
      * exists (concat ys). exact Hq.
      * apply Hoy. left. reflexivity.
Qed.

Lemma hepmc_parts_unique file h1 r1 h2 r2 : hepmc_parts file h1 r1 -> hepmc_parts file h2 r2 -> h1 = h2 /\ r1 = r2.
Proof.
  intros (E1 & N1 & O1 & F1 & B1 & L1) (E2 & N2 & O2 & F2 & B2 & L2).
  assert (H : h1 :: r1 = h2 :: r2); [|injection H; auto].
  assert (Hl : forall h rs, finishes_with [NL] h -> all_but_last (finishes_with [newline]) rs -> all_but_last (finishes_with [NL]) (h :: rs)).
  { intros h rs Hf Hrs a x b E Hb. destruct a as [|a0 a]; cbn in E; injection E as <- E; [exact Hf|]. exact (Hrs a x b E Hb). }
  apply pieces_unique; cbn [concat tl].
  - rewrite <- E1, <- E2. reflexivity.
  - discriminate.
  - discriminate.
  - intros x [<-|Hx]; [exact O1|apply B1; exact Hx].
  - intros x [<-|Hx]; [exact O2|apply B2; exact Hx].
  - intros x Hx. apply B1. exact Hx.
  - intros x Hx. apply B2. exact Hx.
  - apply Hl; assumption.
  - apply Hl; assumption.
Qed.

(** reading a file that is known to have these parts *)
Lemma hepmc_read_parts file h rs : hepmc_parts file h rs -> ~ finishes_with event_mark file ->
  rd_header (hepmc_open file) = h /\ hepmc_records (hepmc_open file) = (if forallb utf8 rs then Some rs else None).
Proof.
  intros Hp Hend. destruct (hepmc_records_spec file) as (rs' & Hp' & Hr).
  - destruct Hp as (-> & Hne & _ & [a ->] & Hb & _). destruct rs as [|r rs]; [congruence|]. destruct (Hb r (or_introl eq_refl)) as [[b ->] _].
    exists a, (b ++ concat rs). cbn [concat]. rewrite <- !app_assoc. reflexivity.
  - exact Hend.
  - destruct (hepmc_parts_unique _ _ _ _ _ Hp Hp') as [-> ->]. auto.
Qed.

Lemma utf8_ascii_app a b : Forall is_ascii a -> utf8 (a ++ b) = utf8 b.
Proof. induction 1 as [|c a Hc Ha IH]; [reflexivity|]. cbn [app]. rewrite utf8_cons by exact Hc. exact IH. Qed.
Lemma number_ascii c : number_char c -> is_ascii c.
Proof.
  unfold number_char, decimal_digit, is_ascii. intros H.
  repeat match goal with H : _ \/ _ |- _ => destruct H as [H|H] end; try (subst; reflexivity); lia.
Qed.
Lemma whitespace_ascii c : whitespace c -> is_ascii c.
Proof. intros [[->| ->]|[->|[->| ->]]]; reflexivity. Qed.
Lemma utf8_heads a b : heads whitespace b -> utf8 (a ++ b) = utf8 a && utf8 b.
Proof.
  destruct b as [|c b]; intros H; [rewrite app_nil_r; cbn; rewrite andb_true_r; reflexivity|].
  apply utf8_cut, whitespace_ascii. exact H.
Qed.

Lemma no_nl_occurs (x t : text) m : ~ In NL x -> occurs (NL :: m) (x ++ t) -> occurs (NL :: m) t.
Proof.
  intros Hx (a & b & H). destruct (app_split_mid _ _ _ _ H) as [(s & Hs & Hq)|(s & Hs & Hq)].
  - destruct s as [|c s]; [exists [], b; exact (eq_sym Hq)|]. cbn in Hq. injection Hq as <- _. exfalso. apply Hx. rewrite Hs.
    apply in_or_app. right. left. reflexivity.
  - exists s, b. exact Hq.
Qed.
Lemma finishes_nl_app (x t : text) : ~ In NL x -> finishes_with [NL] (x ++ t) -> finishes_with [NL] t.
Proof.
  intros Hx [a H]. destruct (app_split_mid _ _ _ _ H) as [(s & Hs & Hq)|(s & Hs & Hq)]; [|exists s; exact Hq].
  destruct s as [|c s]; [exists []; exact (eq_sym Hq)|]. cbn in Hq. injection Hq as <- _. exfalso. apply Hx. rewrite Hs.
  apply in_or_app. right. left. reflexivity.
Qed.

Section Replaced.
Context (N : Type) (D : N -> Prop) (double : parser N) (show : N -> text).
Hypothesis HT : number_text N D double show.

Lemma replaced_record record record' w : D w -> entry_replaced (fun p => exists n, before_weights n p) (show w) record record' ->
  utf8 record = true -> ~ occurs event_mark record ->
  utf8 record' = true /\ ~ occurs event_mark record' /\ begins_with ["E"%char] record' /\ 2 <= length record' /\
  (finishes_with [NL] record -> finishes_with [NL] record').
Proof.
  intros Hw (p & c & s & tok & post & -> & -> & [n Hp] & Hc & Hs & Ht & Hpost) Hu Ho.
  assert (Hpn := before_weights_no_newline _ _ Hp).
  assert (Hcn : c <> NL) by (intros ->; exact (newline_not_blank Hc)).
  assert (Hold : ~ In NL (p ++ c :: s ++ tok)).
  { rewrite in_app_iff. intros [H|[H|H]]; [exact (Hpn H)|exact (Hcn H)|]. apply in_app_iff in H as [H|H].
    - rewrite Forall_forall in Hs. exact (newline_not_blank (Hs _ H)).
    - destruct Ht as [_ Ht]. rewrite Forall_forall in Ht. exact (Ht _ H newline_ws). }
  destruct (nt_show _ _ _ _ HT w Hw) as [Hsne Hsn].
  assert (Hnew : ~ In NL (p ++ c :: show w)).
  { rewrite in_app_iff. intros [H|[H|H]]; [exact (Hpn H)|exact (Hcn H)|].
    rewrite Forall_forall in Hsn. exact (number_char_not_ws _ (Hsn _ H) newline_ws). }
  replace (p ++ c :: s ++ tok ++ post) with ((p ++ c :: s ++ tok) ++ post) in * by (rewrite <- !app_assoc; cbn; rewrite <- !app_assoc; reflexivity).
  replace (p ++ c :: show w ++ post) with ((p ++ c :: show w) ++ post) by (rewrite <- !app_assoc; reflexivity).
  assert (Hca : is_ascii c) by (apply whitespace_ascii; left; exact Hc).
  split; [|split; [|split; [|split]]].
  - rewrite utf8_heads in * by exact Hpost. apply andb_true_iff in Hu as [Hu1 Hu2]. rewrite Hu2, andb_true_r.
    rewrite utf8_cut in * by exact Hca. apply andb_true_iff in Hu1 as [Hu1 _]. rewrite Hu1. rewrite utf8_cons by exact Hca.
    rewrite <- (app_nil_r (show w)). rewrite utf8_ascii_app; [reflexivity|]. eapply Forall_impl; [|exact Hsn]. exact number_ascii.
  - intros H. apply no_nl_occurs in H; [|exact Hnew]. apply Ho. destruct H as (a & b & ->).
    exists ((p ++ c :: s ++ tok) ++ a), b. rewrite <- !app_assoc. reflexivity.
  - destruct Hp as (a & nr & nrandom & b & nw & -> & _). eexists. rewrite <- !app_assoc. reflexivity.
  - rewrite !app_length. cbn. destruct (show w); [congruence|]. cbn. lia.
  - intros H. apply finishes_nl_app in H; [|exact Hold]. destruct H as [a ->]. exists ((p ++ c :: show w) ++ a). apply app_assoc.
Qed.
End Replaced.

Lemma finishes_concat : forall (rs : list text) h, rs <> [] -> (forall r, In r rs -> begins_with ["E"%char] r /\ ~ occurs event_mark r /\ 2 <= length r) ->
  ~ finishes_with event_mark (h ++ concat rs).
Proof.
  induction rs as [|r rs IH]; intros h Hne H; [congruence|]. cbn [concat]. destruct rs as [|r2 rs].
  - cbn. rewrite app_nil_r. destruct (H r (or_introl eq_refl)) as (_ & Ho & Hl). intros [a Ha].
    destruct (app_split_mid _ _ _ _ Ha) as [(s & Hs & Hq)|(s & Hs & Hq)].
    + assert (Hlen := f_equal (@length _) Hq). rewrite app_length in Hlen. cbn in Hlen. destruct s as [|c s]; [|cbn in Hlen; lia].
      cbn in Hq. subst r. apply Ho. exists [], []. reflexivity.
    + apply Ho. exists s, []. exact Hq.
  - rewrite app_assoc. apply IH; [discriminate|]. intros z Hz. apply H. right. exact Hz.
Qed.

Section HepMCFile.
Context (N : NumOps) (D : N -> Prop) (double : parser N) (show : N -> text) (sort : sorter).
Hypothesis HT : number_text N D double show.

Lemma hepmc_single_replaced names record ev w :
  parse_hepmc double false sort names record = Ok ev -> D w ->
  exists record', hepmc_update show false names [w] record = Ok record' /\
    entry_replaced (fun p => exists n, before_weights n p) (show w) record record' /\
    parse_hepmc double false sort names record' = Ok (mkEvent (ev_id ev) [w] (ev_out ev)).
Proof.
  intros H Hw. destruct (hepmc_single N D double show sort HT names record ev w H Hw) as (nw & pre & s & tok & post & -> & Hpre & Hs & Ht & Hpost & Hup & Hback).
  exists (pre ++ firstn 1 s ++ show w ++ post). split; [exact Hup|]. split; [|exact Hback].
  destruct s as [|c s]; [destruct Hs; congruence|]. destruct Hs as [_ Hs]. inversion Hs; subst.
  exists pre, c, s, tok, post. cbn [app firstn]. split; [reflexivity|]. split; [reflexivity|]. split; [eauto|]. auto.
Qed.

Lemma hepmc_file names file ws records : 
  occurs event_mark file -> ~ finishes_with event_mark file ->
  hepmc_records (hepmc_open file) = Some records -> length ws = length records -> Forall D ws ->
  (forall r, In r records -> exists ev, parse_hepmc double false sort names r = Ok ev) ->
  exists file' records', hepmc_rewrite show false names (map (fun w => [w]) ws) file = Ok (file', length records) /\
    rd_header (hepmc_open file') = rd_header (hepmc_open file) /\
    hepmc_records (hepmc_open file') = Some records' /\ length records' = length records /\
    forall i w r r', nth_error ws i = Some w -> nth_error records i = Some r -> nth_error records' i = Some r' ->
      entry_replaced (fun p => exists n, before_weights n p) (show w) r r' /\
      exists ev, parse_hepmc double false sort names r = Ok ev /\
        parse_hepmc double false sort names r' = Ok (mkEvent (ev_id ev) [w] (ev_out ev)).
Proof.
  intros Hocc Hend Hrec Hlen HD Hparse.
  destruct (hepmc_records_spec file Hocc Hend) as (rs & Hparts & Hrs). rewrite Hrec in Hrs.
  destruct (forallb utf8 rs) eqn:Hu; [|discriminate]. injection Hrs as ->. rewrite forallb_forall in Hu.
  destruct Hparts as (Hfile & Hne & Hoh & Hfh & Hb & Hlast).
  set (P := fun (wl : list N) r r' => exists w, wl = [w] /\ D w /\ entry_replaced (fun p => exists n, before_weights n p) (show w) r r' /\
    exists ev, parse_hepmc double false sort names r = Ok ev /\ parse_hepmc double false sort names r' = Ok (mkEvent (ev_id ev) [w] (ev_out ev))).
  destruct (update_list_forall2 (hepmc_update show false names) P (map (fun w => [w]) ws) rs) as (l & Hl & Hll & Hall).
  { rewrite map_length. exact Hlen. }
  { intros wl r Hwl Hr. apply in_map_iff in Hwl as (w & <- & Hw). rewrite Forall_forall in HD.
    destruct (Hparse r Hr) as [ev Hev]. destruct (hepmc_single_replaced names r ev w Hev (HD _ Hw)) as (r' & H1 & H2 & H3).
    exists r'. split; [exact H1|]. exists w. split; [reflexivity|]. split; [apply HD; exact Hw|]. split; [exact H2|]. exists ev. auto. }
  assert (Hnth : forall i r', nth_error l i = Some r' -> exists w r, nth_error ws i = Some w /\ nth_error rs i = Some r /\ P [w] r r').
  { intros i r' Hr'. assert (Hi : i < length l) by (apply nth_error_Some; congruence).
    destruct (nth_error ws i) as [w|] eqn:Ew; [|apply nth_error_None in Ew; unfold text in *; lia].
    destruct (nth_error rs i) as [r|] eqn:Er; [|apply nth_error_None in Er; unfold text in *; lia].
    exists w, r. split; [reflexivity|]. split; [reflexivity|]. apply (Hall i); auto. apply map_nth_error with (f := fun w => [w]). exact Ew. }
  assert (Hgood : forall i r', nth_error l i = Some r' ->
    utf8 r' = true /\ ~ occurs event_mark r' /\ begins_with ["E"%char] r' /\ 2 <= length r' /\
    (forall r, nth_error rs i = Some r -> finishes_with [NL] r -> finishes_with [NL] r')).
  { intros i r' Hr'. destruct (Hnth i r' Hr') as (w & r & Ew & Er & (w' & E1 & Hw & Hrep & _)). injection E1 as <-.
    assert (Hin : In r rs) by (eapply nth_error_In; exact Er).
    destruct (replaced_record N D double show HT r r' w Hw Hrep (Hu _ Hin)) as (G1 & G2 & G3 & G4 & G5); [apply Hb; exact Hin|].
    repeat (split; [assumption|]). intros r2 Er2. rewrite Er in Er2. injection Er2 as <-. exact G5. }
  assert (Hlne : l <> []) by (intros ->; destruct rs; [congruence|discriminate]).
  set (file' := rd_header (hepmc_open file) ++ concat l).
  assert (Hin_nth : forall r', In r' l -> exists i, nth_error l i = Some r') by (intros r'; apply In_nth_error).
  assert (Hparts' : hepmc_parts file' (rd_header (hepmc_open file)) l).
  { split; [reflexivity|]. split; [exact Hlne|]. split; [exact Hoh|]. split; [exact Hfh|]. split.
    - intros r' Hr'. destruct (Hin_nth _ Hr') as [i Hi]. destruct (Hgood i r' Hi) as (_ & G2 & G3 & _). auto.
    - intros a x b Hab Hbne. assert (Hi : nth_error l (length a) = Some x) by (rewrite Hab, nth_error_app2, Nat.sub_diag by lia; reflexivity).
      destruct (Hgood _ _ Hi) as (_ & _ & _ & _ & G5). destruct (Hnth _ _ Hi) as (w & r & _ & Er & _). apply (G5 r Er).
      destruct (nth_error_split rs (length a) Er) as (a' & b' & Hab' & Hla). apply (Hlast a' r b' Hab').
      intros ->. rewrite Hab' in Hll. rewrite Hab in Hll. rewrite !app_length in Hll. cbn in Hll. destruct b; [congruence|cbn in Hll; lia]. }
  assert (Hend' : ~ finishes_with event_mark file').
  { apply finishes_concat; [exact Hlne|]. intros r' Hr'. destruct (Hin_nth _ Hr') as [i Hi]. destruct (Hgood i r' Hi) as (_ & G2 & G3 & G4 & _). auto. }
  destruct (hepmc_read_parts file' _ l Hparts' Hend') as [Hh Hr].
  exists file', l. split.
  - rewrite (hepmc_rewrite_list N show false names _ file rs Hrec). rewrite Hl. cbn [bind]. rewrite Hll. reflexivity.
  - split; [exact Hh|]. split.
    + rewrite Hr. replace (forallb utf8 l) with true; [reflexivity|]. symmetry. apply forallb_forall. intros r' Hr'.
      destruct (Hin_nth _ Hr') as [i Hi]. apply (Hgood i r' Hi).
    + split; [exact Hll|]. intros i w r r' Ew Er Er'. destruct (Hnth i r' Er') as (w2 & r2 & Ew2 & Er2 & (w3 & E3 & _ & Hrep & Hev)).
      pose proof (eq_trans (eq_sym Ew) Ew2) as Ew3. pose proof (eq_trans (eq_sym Er) Er2) as Er3. injection Ew3 as <-. injection Er3 as <-. injection E3 as <-. auto.
Qed.
End HepMCFile.
