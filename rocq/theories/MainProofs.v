(** Proofs about ModelMain.v: rewriting a single file and reading it again. *)
From Verif Require Import Base BaseProofs Num ModelEvent ModelText SpecText SpecFormats SpecHepMC TextProofs ReaderProofs ParserProofs
  ModelHepMC HepMCProofs HepMCProofs2 HepMCProofs3 ModelLHEF ModelStripper FormatProofs ModelIO SpecIO FileProofs FileProofs2 FileProofs3 IOProofs
  PropsHepMC PropsFormats ModelCres ModelMain SpecMain.
From Coq Require Import Lia.

(** *** Detection of formats *)
Lemma starts_begins p t : starts_with p t = true <-> begins_with p t.
Proof.
  unfold starts_with. destruct (strip_prefix p t) as [r|] eqn:E.
  - apply strip_prefix_some in E. split; [intros _; exists r; exact E|reflexivity].
  - apply strip_prefix_none in E. split; [discriminate|contradiction].
Qed.
Lemma starts_cut c x y : forall p a, ~ In c p -> starts_with p (a ++ c :: x) = starts_with p (a ++ c :: y).
Proof.
  intros p a Hc. assert (H : forall x y, begins_with p (a ++ c :: x) -> begins_with p (a ++ c :: y)).
  { clear x y. intros x y [b Hb]. destruct (app_split_mid _ _ _ _ Hb) as [(s & Hs & Hq)|(s & Hs & Hq)].
    - exists (s ++ c :: y). rewrite Hs, <- app_assoc. reflexivity.
    - destruct s as [|d s].
      + rewrite app_nil_r in Hs. subst p. exists (c :: y). reflexivity.
      + cbn in Hq. injection Hq as <- _. exfalso. apply Hc. rewrite Hs. apply in_or_app. right. left. reflexivity. }
  apply Bool.eq_iff_eq_true. rewrite !starts_begins. split; apply H.
Qed.
Lemma starts_app p a b : starts_with p a = true -> starts_with p (a ++ b) = true.
Proof. rewrite !starts_begins. intros [x ->]. exists (x ++ b). apply app_assoc_reverse. Qed.
(** a prefix cannot extend over a character it does not contain, unless it starts with it *)
Lemma starts_before p0 p a d x : ~ In d p -> a <> [] -> starts_with (p0 :: p) (a ++ d :: x) = true -> starts_with (p0 :: p) a = true.
Proof.
  rewrite !starts_begins. intros Hd Ha [b Hb]. destruct a as [|a0 a]; [congruence|]. cbn in Hb. injection Hb as <- Hb.
  destruct (app_split_mid _ _ _ _ Hb) as [(s & Hs & Hq)|(s & Hs & Hq)].
  - exists s. rewrite Hs. reflexivity.
  - destruct s as [|e s].
    + rewrite app_nil_r in Hs. subst p. exists []. rewrite app_nil_r. reflexivity.
    + cbn in Hq. injection Hq as <- _. exfalso. apply Hd. rewrite Hs. apply in_or_app. right. left. reflexivity.
Qed.
Lemma trim_app a b : trim_ascii_start (a ++ b) = if forallb is_ascii_ws a then trim_ascii_start b else trim_ascii_start a ++ b.
Proof.
  unfold trim_ascii_start. induction a as [|c a IH]; [reflexivity|]. cbn [app span forallb].
  destruct (is_ascii_ws c); [|reflexivity]. cbn [andb]. destruct (span is_ascii_ws (a ++ b)) as [u v], (span is_ascii_ws a) as [u' v']. exact IH.
Qed.
Lemma trim_ws a : forallb is_ascii_ws a = true -> trim_ascii_start a = [].
Proof. intros H. rewrite <- (app_nil_r a), trim_app, H. reflexivity. Qed.
Lemma trim_ne a : forallb is_ascii_ws a = false -> trim_ascii_start a <> [].
Proof.
  unfold trim_ascii_start. induction a as [|c a IH]; [discriminate|]. cbn [span forallb]. destruct (is_ascii_ws c); [|discriminate].
  cbn [andb]. intros H. specialize (IH H). destruct (span is_ascii_ws a). exact IH.
Qed.

Definition header_mark : text := lit "<?xml".
Lemma xml_cut a c x y : ~ In c header_mark -> starts_with header_mark (trim_ascii_start (c :: x)) = false -> starts_with header_mark (trim_ascii_start (c :: y)) = false ->
  starts_with header_mark (trim_ascii_start (a ++ c :: x)) = starts_with header_mark (trim_ascii_start (a ++ c :: y)).
Proof.
  intros Hc Hx Hy. rewrite !trim_app. destruct (forallb is_ascii_ws a); [congruence|]. apply starts_cut. exact Hc.
Qed.

Lemma is_xml_format file : is_xml file = match detect_event_file_format file with StripperXml => true | _ => false end.
Proof.
  unfold is_xml, detect_event_file_format. destruct (starts_with (lit "root") file) eqn:E.
  - apply starts_begins in E as [b ->]. reflexivity.
  - destruct (starts_with (lit "<?xml") (trim_ascii_start file)); [reflexivity|]. destruct (starts_with (lit "<LesHouchesEvents") file); reflexivity.
Qed.

(** HepMC: the header finishes with a newline, followed by E *)
Lemma detect_hepmc h x y : finishes_with [NL] h ->
  detect_event_file_format (h ++ "E"%char :: x) = HepMC2 -> detect_event_file_format (h ++ "E"%char :: y) = HepMC2.
Proof.
  intros [a ->] H. rewrite <- !app_assoc in *. cbn [app] in *. unfold detect_event_file_format in *.
  rewrite (starts_cut NL _ ("E"%char :: x) (lit "root")) by (vm_compute; intuition discriminate).
  rewrite (starts_cut NL _ ("E"%char :: x) (lit "<LesHouchesEvents")) by (vm_compute; intuition discriminate).
  change (lit "<?xml") with header_mark in *.
  rewrite (xml_cut a NL ("E"%char :: y) ("E"%char :: x)); [exact H| |reflexivity|reflexivity]. vm_compute; intuition discriminate.
Qed.
Lemma detect_shorter a b : detect_event_file_format (a ++ b) = HepMC2 -> detect_event_file_format a = HepMC2.
Proof.
  unfold detect_event_file_format. intros H.
  destruct (starts_with (lit "root") a) eqn:E1. { rewrite (starts_app _ _ b E1) in H. discriminate. }
  destruct (starts_with (lit "root") (a ++ b)); [discriminate|].
  destruct (starts_with (lit "<?xml") (trim_ascii_start a)) eqn:E2.
  { rewrite trim_app in H. destruct (forallb is_ascii_ws a) eqn:Ea; [rewrite trim_ws in E2 by exact Ea; discriminate|].
    rewrite (starts_app _ _ b E2) in H. discriminate. }
  destruct (starts_with (lit "<?xml") (trim_ascii_start (a ++ b))); [discriminate|].
  destruct (starts_with (lit "<LesHouchesEvents") a) eqn:E3; [|reflexivity]. rewrite (starts_app _ _ b E3) in H. discriminate.
Qed.
Lemma trim_lt x : trim_ascii_start ("<"%char :: x) = "<"%char :: x. Proof. reflexivity. Qed.
Lemma detect_lhef a x y : detect_event_file_format (a ++ NL :: x) = Lhef -> detect_event_file_format (a ++ NL :: y) = Lhef.
Proof.
  unfold detect_event_file_format. intros H.
  rewrite (starts_cut NL y x (lit "root")) by (vm_compute; intuition discriminate).
  destruct (starts_with (lit "root") (a ++ NL :: x)); [discriminate|].
  rewrite (starts_cut NL y x (lit "<LesHouchesEvents")) by (vm_compute; intuition discriminate).
  destruct (starts_with (lit "<?xml") (trim_ascii_start (a ++ NL :: x))) eqn:Ex; [discriminate|].
  destruct (starts_with (lit "<LesHouchesEvents") (a ++ NL :: x)) eqn:El; [|discriminate].
  assert (Ha : exists a', a = "<"%char :: a').
  { apply starts_begins in El as [b Hb]. destruct a as [|c a]; cbn in Hb; injection Hb as E _; [discriminate|]. subst c. eauto. }
  destruct Ha as [a' ->]. cbn [app] in *. rewrite trim_lt in *.
  change ("<"%char :: a' ++ NL :: y) with (("<"%char :: a') ++ NL :: y). rewrite (starts_cut NL y x (lit "<?xml")) by (vm_compute; intuition discriminate).
  cbn [app]. rewrite Ex. reflexivity.
Qed.
Lemma detect_stripper h x y : begins_with subevent_mark x -> detect_event_file_format (h ++ x) = StripperXml -> detect_event_file_format (h ++ y) = StripperXml.
Proof.
  intros [x' ->] H. unfold detect_event_file_format in H.
  destruct (starts_with (lit "root") (h ++ subevent_mark ++ x')); [discriminate|].
  destruct (starts_with (lit "<?xml") (trim_ascii_start (h ++ subevent_mark ++ x'))) eqn:E; [|destruct (starts_with (lit "<LesHouchesEvents") (h ++ subevent_mark ++ x')); discriminate].
  rewrite trim_app in E. destruct (forallb is_ascii_ws h) eqn:Eh; [discriminate|].
  change (subevent_mark ++ x') with ("<"%char :: lit "se" ++ x') in E. change (lit "<?xml") with ("<"%char :: lit "?xml") in E.
  apply starts_before in E; [|vm_compute; intuition discriminate|apply trim_ne; exact Eh]. change ("<"%char :: lit "?xml") with (lit "<?xml") in E.
  unfold detect_event_file_format. rewrite trim_app, Eh, (starts_app _ _ y E).
  destruct (starts_with (lit "root") (h ++ y)) eqn:Er; [|reflexivity]. exfalso.
  destruct h as [|c h]; [discriminate|]. apply starts_begins in Er as [b Hb]. cbn in Hb. injection Hb as -> _. discriminate.
Qed.

(** *** Lists of events *)
Lemma Forall2_from_nth A B (P : A -> B -> Prop) : forall l m, length l = length m ->
  (forall i a b, nth_error l i = Some a -> nth_error m i = Some b -> P a b) -> Forall2 P l m.
Proof.
  induction l as [|a l IH]; intros [|b m] Hl H; try discriminate; constructor.
  - apply (H 0); reflexivity.
  - apply IH; [cbn in Hl; lia|]. intros i. apply (H (S i)).
Qed.
Lemma Forall2_len A B (P : A -> B -> Prop) l m : Forall2 P l m -> length l = length m.
Proof. induction 1; cbn; congruence. Qed.
Lemma combine_nth_error A B : forall (l : list A) (m : list B) i a b, nth_error l i = Some a -> nth_error m i = Some b -> nth_error (combine l m) i = Some (a, b).
Proof. induction l as [|x l IH]; intros [|y m] [|i] a b H1 H2; try discriminate; cbn in *; [congruence|]. apply IH; assumption. Qed.
Lemma reweighted_all_length N (evs : list (Event N)) W : length W = length evs -> length (reweighted_all evs W) = length evs.
Proof. intros H. unfold reweighted_all. rewrite map_length, combine_length, H. apply Nat.min_id. Qed.
Lemma events_again N (P Q : text -> Event N -> Prop) rs evs W l : Forall2 P rs evs -> length W = length rs -> length l = length rs ->
  (forall i w r r' ev, nth_error W i = Some w -> nth_error rs i = Some r -> nth_error l i = Some r' -> P r ev -> Q r' (reweighted ev w)) ->
  Forall2 Q l (reweighted_all evs W).
Proof.
  intros HP HW Hl H. pose proof (Forall2_len _ _ _ _ _ HP) as Hlen. apply Forall2_from_nth.
  - rewrite reweighted_all_length; unfold text in *; lia.
  - intros i r' ev' Hr' Hev'. assert (Hi : i < length l) by (apply nth_error_Some; congruence).
    destruct (nth_error rs i) as [r|] eqn:Er; [|apply nth_error_None in Er; unfold text in *; lia].
    destruct (nth_error W i) as [w|] eqn:Ew; [|apply nth_error_None in Ew; unfold text in *; lia].
    destruct (Forall2_nth _ _ _ _ _ HP i r Er) as (ev & Eev & Hev).
    unfold reweighted_all in Hev'. rewrite (map_nth_error _ _ _ (combine_nth_error _ _ _ _ _ _ _ Eev Ew)) in Hev'. injection Hev' as <-. cbn [fst snd].
    eapply H; eauto.
Qed.
Lemma reweighted_nil N (ev : Event N) : reweighted ev [] = ev.
Proof. destruct ev. reflexivity. Qed.
Lemma reweighted_one N (ev : Event N) w : reweighted ev [w] = mkEvent (ev_id ev) [w] (ev_out ev).
Proof. reflexivity. Qed.

(** *** HepMC *)
Section Files.
Context (N : NumOps) (D : N -> Prop) (double : parser N) (show : N -> text) (sort : sorter) (checks mw : bool) (names : list text).
Hypothesis HT : number_text N D double show.
Hypothesis Hmode : mw = false \/ names = [].
Definition one_weight (ws : list N) : Prop := ws = [] \/ exists w, ws = [w] /\ D w.

Lemma hepmc_rec r ws ev : parse_hepmc double mw sort names r = Ok ev -> one_weight ws ->
  utf8 r = true -> ~ occurs event_mark r -> begins_with ["E"%char] r ->
  exists r', hepmc_update show mw names ws r = Ok r' /\ parse_hepmc double mw sort names r' = Ok (reweighted ev ws) /\
    utf8 r' = true /\ ~ occurs event_mark r' /\ begins_with ["E"%char] r' /\ 2 <= length r' /\ (finishes_with [NL] r -> finishes_with [NL] r').
Proof.
  intros Hp [->|(w & -> & Hw)] Hu Ho Hb.
  - exists r. rewrite reweighted_nil. split; [reflexivity|]. split; [exact Hp|]. repeat (split; [assumption|]). split; [|auto].
    destruct Hb as [b ->]. destruct b as [|c b]; [|cbn; lia]. exfalso. destruct mw; discriminate.
  - assert (H : exists record', hepmc_update show mw names [w] r = Ok record' /\
      entry_replaced (fun p => exists n, before_weights n p) (show w) r record' /\
      parse_hepmc double mw sort names record' = Ok (mkEvent (ev_id ev) [w] (ev_out ev))).
    { destruct mw.
      - destruct Hmode as [?| Hn]; [discriminate|]. rewrite Hn in *. apply (hepmc_unnamed N D double show sort HT); assumption.
      - apply (hepmc_single_replaced N D double show sort HT); assumption. }
    destruct H as (r' & H1 & H2 & H3). exists r'. split; [exact H1|]. split; [exact H3|].
    exact (replaced_record N D double show HT r r' w Hw H2 Hu Ho).
Qed.

Lemma hepmc_again file records ws evs : ~ finishes_with event_mark file -> detect_event_file_format file = HepMC2 ->
  hepmc_records (hepmc_open file) = Some records -> length ws = length records -> Forall one_weight ws ->
  Forall2 (fun r ev => parse_hepmc double mw sort names r = Ok ev) records evs ->
  exists l, update_list (hepmc_update show mw names) ws records = Ok l /\
    let file' := rd_header (hepmc_open file) ++ concat l in
    detect_event_file_format file' = HepMC2 /\ hepmc_records (hepmc_open file') = Some l /\
    Forall2 (fun r ev => parse_hepmc double mw sort names r = Ok ev) l (reweighted_all evs ws).
Proof.
  intros Hend Hdet Hrec Hlen HD Hparse.
  assert (Hocc : occurs event_mark file \/ ~ occurs event_mark file).
  { destruct (find event_mark file) eqn:E; [left; apply find_some in E|right; apply find_none; exact E].
    destruct E as (a & b & E & _). exists a, b. exact E. }
  destruct Hocc as [Hocc|Hno].
  2:{ destruct (C31_no_event file Hno) as [Hr Hh]. rewrite Hr in Hrec. injection Hrec as <-. inversion Hparse; subst. exists [].
    split; [destruct ws; reflexivity|]. cbn [concat]. rewrite app_nil_r, Hh. cbv zeta.
    assert (Hno' : ~ occurs event_mark (removelast file)).
    { intros (a & b & H). apply Hno. destruct file as [|c file]; [discriminate H || (destruct a; discriminate)|].
      pose proof (app_removelast_last c (l := c :: file) ltac:(discriminate)) as E. exists a, (b ++ [last (c :: file) c]). rewrite E at 1. rewrite H, <- !app_assoc. reflexivity. }
    split; [|split].
    - destruct file as [|c file]; [reflexivity|]. pose proof (app_removelast_last c (l := c :: file) ltac:(discriminate)) as E. rewrite E in Hdet.
      eapply detect_shorter. exact Hdet.
    - apply (C31_no_event _ Hno').
    - constructor. }
  destruct (hepmc_records_spec file Hocc Hend) as (rs & Hparts & Hrs). rewrite Hrec in Hrs.
  destruct (forallb utf8 rs) eqn:Hu; [|discriminate]. injection Hrs as ->. rewrite forallb_forall in Hu.
  destruct Hparts as (Hfile & Hne & Hoh & Hfh & Hb & Hlast).
  set (P := fun (w : list N) r r' => (forall ev, parse_hepmc double mw sort names r = Ok ev -> parse_hepmc double mw sort names r' = Ok (reweighted ev w)) /\
    utf8 r' = true /\ ~ occurs event_mark r' /\ begins_with ["E"%char] r' /\ 2 <= length r' /\ (finishes_with [NL] r -> finishes_with [NL] r')).
  destruct (update_list_forall2 (hepmc_update show mw names) P ws rs) as (l & Hl & Hll & Hall).
  { exact Hlen. }
  { intros w r Hw Hr. rewrite Forall_forall in HD. destruct (In_nth_error _ _ Hr) as [i Hi]. destruct (Forall2_nth _ _ _ _ _ Hparse i r Hi) as (ev & _ & Hev).
    destruct (hepmc_rec r w ev Hev (HD w Hw) (Hu r Hr) (proj2 (Hb r Hr)) (proj1 (Hb r Hr))) as (r' & H1 & H2 & H3).
    exists r'. split; [exact H1|]. split; [|exact H3]. intros ev2 E. rewrite Hev in E. injection E as <-. exact H2. }
  exists l. split; [exact Hl|]. cbv zeta. set (file' := rd_header (hepmc_open file) ++ concat l).
  assert (Hnth : forall i r', nth_error l i = Some r' -> exists w r, nth_error ws i = Some w /\ nth_error rs i = Some r /\ P w r r').
  { intros i r' Hr'. assert (Hi : i < length l) by (apply nth_error_Some; congruence).
    destruct (nth_error ws i) as [w|] eqn:Ew; [|apply nth_error_None in Ew; unfold text in *; lia].
    destruct (nth_error rs i) as [r|] eqn:Er; [|apply nth_error_None in Er; unfold text in *; lia].
    exists w, r. split; [reflexivity|]. split; [reflexivity|]. apply (Hall i); auto. }
  assert (Hlne : l <> []) by (intros ->; destruct rs; [congruence|discriminate]).
  assert (Hin : forall r', In r' l -> utf8 r' = true /\ ~ occurs event_mark r' /\ begins_with ["E"%char] r' /\ 2 <= length r').
  { intros r' Hr'. destruct (In_nth_error _ _ Hr') as [i Hi]. destruct (Hnth i r' Hi) as (w & r & _ & _ & (_ & H)). tauto. }
  assert (Hparts' : hepmc_parts file' (rd_header (hepmc_open file)) l).
  { split; [reflexivity|]. split; [exact Hlne|]. split; [exact Hoh|]. split; [exact Hfh|]. split.
    - intros r' Hr'. destruct (Hin r' Hr') as (_ & G2 & G3 & _). auto.
    - intros a x b Hab Hbne. assert (Hi : nth_error l (length a) = Some x) by (rewrite Hab, nth_error_app2, Nat.sub_diag by lia; reflexivity).
      destruct (Hnth _ _ Hi) as (w & r & _ & Er & (_ & _ & _ & _ & _ & G5)). apply G5.
      destruct (nth_error_split rs (length a) Er) as (a' & b' & Hab' & Hla). apply (Hlast a' r b' Hab').
      intros ->. rewrite Hab' in Hll. rewrite Hab in Hll. rewrite !app_length in Hll. cbn in Hll. destruct b; [congruence|cbn in Hll; lia]. }
  assert (Hend' : ~ finishes_with event_mark file').
  { apply finishes_concat; [exact Hlne|]. intros r' Hr'. destruct (Hin r' Hr') as (_ & G2 & G3 & G4). auto. }
  destruct (hepmc_read_parts file' _ l Hparts' Hend') as [Hh Hr]. split; [|split].
  - rewrite Hfile in Hdet. unfold file'. destruct rs as [|r0 rs]; [congruence|]. destruct l as [|l0 l]; [congruence|]. cbn [concat] in *.
    destruct (Hb r0 (or_introl eq_refl)) as [[b ->] _]. destruct (Hin l0 (or_introl eq_refl)) as (_ & _ & [b' ->] & _).
    cbn [app] in *. eapply detect_hepmc; [exact Hfh|exact Hdet].
  - rewrite Hr. replace (forallb utf8 l) with true; [reflexivity|]. symmetry. apply forallb_forall. intros r' Hr'. apply Hin. exact Hr'.
  - eapply events_again; [exact Hparse|exact Hlen|exact Hll|]. intros i w r r' ev Ew Er Er' Hev. apply (Hall i w r r' Ew Er Er'). exact Hev.
Qed.

(** *** LHEF *)
Lemma lhef_rec r ws ev : parse_lhef double mw sort r = Ok ev -> one_weight ws ->
  utf8 r = true -> first_at_end event_end r -> finishes_with (NL :: event_end) r ->
  exists r', lhef_update show mw ws r = Ok r' /\ parse_lhef double mw sort r' = Ok (reweighted ev ws) /\ utf8 r' = true /\ first_at_end event_end r'.
Proof.
  intros Hp [->|(w & -> & Hw)] Hu Ho Hb.
  - exists r. rewrite reweighted_nil. repeat (split; [reflexivity || assumption|]). exact Ho.
  - destruct (lhef_rewrite_one N D double show sort HT mw r ev w Hp Hw) as (r' & H1 & H2 & H3). exists r'. split; [exact H1|]. split; [exact H3|].
    destruct (lhef_replaced_record N D double show HT lhef_before_weight r r' w Hw H2 Hu Ho Hb) as (G1 & G2 & _). auto.
Qed.

Lemma lhef_again file records ws evs : occurs init_end file -> detect_event_file_format file = Lhef ->
  lhef_records (lhef_open file) = Some records -> (forall r, In r records -> finishes_with (newline :: event_end) r) ->
  length ws = length records -> Forall one_weight ws ->
  Forall2 (fun r ev => parse_lhef double mw sort r = Ok ev) records evs ->
  exists l, update_list (lhef_update show mw) ws records = Ok l /\
    let file' := rd_header (lhef_open file) ++ concat l ++ lhef_footer in
    detect_event_file_format file' = Lhef /\ lhef_records (lhef_open file') = Some l /\
    Forall2 (fun r ev => parse_lhef double mw sort r = Ok ev) l (reweighted_all evs ws).
Proof.
  intros Hocc Hdet Hrec Hnl Hlen HD Hparse.
  destruct (lhef_records_spec file Hocc) as (rs & tail & Hparts & Hrs). rewrite Hrec in Hrs.
  destruct (forallb utf8 rs) eqn:Hu; [|discriminate]. injection Hrs as ->. rewrite forallb_forall in Hu.
  destruct Hparts as (Hfile & Hh & Hr & Ht).
  set (P := fun (w : list N) r r' => (forall ev, parse_lhef double mw sort r = Ok ev -> parse_lhef double mw sort r' = Ok (reweighted ev w)) /\
    utf8 r' = true /\ first_at_end event_end r').
  destruct (update_list_forall2 (lhef_update show mw) P ws rs) as (l & Hl & Hll & Hall).
  { exact Hlen. }
  { intros w r Hw Hin. rewrite Forall_forall in HD. destruct (In_nth_error _ _ Hin) as [i Hi]. destruct (Forall2_nth _ _ _ _ _ Hparse i r Hi) as (ev & _ & Hev).
    destruct (lhef_rec r w ev Hev (HD w Hw) (Hu r Hin) (Hr r Hin) (Hnl r Hin)) as (r' & H1 & H2 & H3).
    exists r'. split; [exact H1|]. split; [|exact H3]. intros ev2 E. rewrite Hev in E. injection E as <-. exact H2. }
  exists l. split; [exact Hl|]. cbv zeta. set (file' := rd_header (lhef_open file) ++ concat l ++ lhef_footer).
  assert (Hgood : forall r', In r' l -> utf8 r' = true /\ first_at_end event_end r').
  { intros r' Hin. destruct (In_nth_error _ _ Hin) as [i Hi]. assert (Hlt : i < length l) by (apply nth_error_Some; congruence).
    destruct (nth_error ws i) as [w|] eqn:Ew; [|apply nth_error_None in Ew; unfold text in *; lia].
    destruct (nth_error rs i) as [r|] eqn:Er; [|apply nth_error_None in Er; unfold text in *; lia].
    apply (Hall i w r r' Ew Er Hi). }
  assert (Hparts' : lhef_parts file' (rd_header (lhef_open file)) l lhef_footer).
  { split; [reflexivity|]. split; [exact Hh|]. split; [intros r' Hr'; apply Hgood; exact Hr'|].
    apply find_none. vm_compute. reflexivity. }
  destruct (lhef_read_parts file' _ l _ Hparts') as [Hh' Hr']. split; [|split].
  - destruct Hh as [[a Ha] _]. unfold file'. rewrite Hfile in Hdet. rewrite Ha in Hdet |- *. change init_end with (NL :: lit "</init>") in *.
    rewrite <- !app_assoc in *. cbn [app] in *. eapply detect_lhef. exact Hdet.
  - rewrite Hr'. replace (forallb utf8 l) with true; [reflexivity|]. symmetry. apply forallb_forall. intros z Hz. apply Hgood. exact Hz.
  - eapply events_again; [exact Hparse|exact Hlen|exact Hll|]. intros i w r r' ev Ew Er Er' Hev. apply (Hall i w r r' Ew Er Er'). exact Hev.
Qed.

(** *** STRIPPER XML *)
Lemma stripper_again scale n file r records e ws evs :
  stripper_open checks n file = Some r -> detect_event_file_format file = StripperXml ->
  occurs subevent_start file -> ~ finishes_with subevent_start file ->
  stripper_records checks r = Some (records, e) -> (checks = true -> (N.of_nat (length records) <= n)%N) ->
  length ws = length records ->
  Forall (fun wl => wl = [] \/ exists w, wl = [w] /\ D w /\ D (ndiv w scale) /\ nmul scale (ndiv w scale) = w) ws ->
  (forall x, In x records -> exists pre num post v, stripper_weight x pre num post /\ double num = Some (v, []) /\ D (nmul scale v)) ->
  Forall2 (fun x ev => read_scaled double show sort mw scale x = Ok ev) records evs ->
  exists l, update_list (stripper_update double show mw scale) ws records = Ok l /\
    let file' := sr_header r ++ concat l in
    detect_event_file_format file' = StripperXml /\
    (exists r' e', stripper_open checks n file' = Some r' /\ sr_header r' = sr_header r /\ stripper_records checks r' = Some (l, e')) /\
    Forall2 (fun x ev => read_scaled double show sort mw scale x = Ok ev) l (reweighted_all evs ws).
Proof.
  intros Ho Hdet Hocc Hend Hrec Hn Hlen HD Hweights Hparse.
  destruct (stripper_parts_exist checks n file r Ho Hocc Hend) as (rs & Hparts & _ & Honly).
  destruct (Honly _ _ Hrec) as [-> Hu]. clear Honly. rewrite forallb_forall in Hu. rewrite Forall_forall in HD.
  destruct Hparts as (Hfile & Hne & Hoh & Hb).
  set (P := fun (w : list N) x x' => (forall ev, read_scaled double show sort mw scale x = Ok ev -> read_scaled double show sort mw scale x' = Ok (reweighted ev w)) /\
    utf8 x' = true /\ begins_with subevent_mark x' /\ only_first x' /\ 3 < length x').
  destruct (update_list_forall2 (stripper_update double show mw scale) P ws rs) as (l & Hl & Hll & Hall).
  { exact Hlen. }
  { intros wl x Hwl Hx. destruct (Hweights x Hx) as (pre & num & post & v & Hsw & Hd & HDv). destruct (Hb x Hx) as [Hbx Hox].
    destruct (In_nth_error _ _ Hx) as [i Hi]. destruct (Forall2_nth _ _ _ _ _ Hparse i x Hi) as (ev & _ & Hev).
    destruct (HD wl Hwl) as [->|(w & -> & HDw & HDq & Hsc)].
    - exists x. split; [reflexivity|]. split; [intros ev2 E2; rewrite reweighted_nil; exact E2|]. split; [apply Hu; exact Hx|]. split; [exact Hbx|]. split; [exact Hox|].
      destruct Hsw as (-> & (s & -> & Hs & _) & _). rewrite <- !app_assoc. change subevent_start with (lit "<se"). rewrite !app_length. cbn. lia.
    - destruct (stripper_one N D double show sort HT mw scale x pre num post v ev w Hsw Hd HDv Hev HDq HDw Hsc) as (H1 & _ & H3).
      exists (pre ++ show (ndiv w scale) ++ post). split; [exact H1|]. split.
      + intros ev2 E2. rewrite Hev in E2. injection E2 as <-. exact H3.
      + pose proof Hsw as Hsw2. destruct Hsw2 as [Ex _]. subst x. apply (stripper_replaced_record N D double show HT pre num post); auto. }
  exists l. split; [exact Hl|]. cbv zeta. set (file' := sr_header r ++ concat l).
  assert (Hgood : forall x', In x' l -> utf8 x' = true /\ begins_with subevent_mark x' /\ only_first x' /\ 3 < length x').
  { intros x' Hin. destruct (In_nth_error _ _ Hin) as [i Hi]. assert (Hlt : i < length l) by (apply nth_error_Some; congruence).
    destruct (nth_error ws i) as [w|] eqn:Ew; [|apply nth_error_None in Ew; unfold text in *; lia].
    destruct (nth_error rs i) as [x|] eqn:Er; [|apply nth_error_None in Er; unfold text in *; lia].
    apply (Hall i w x x' Ew Er Hi). }
  assert (Hlne : l <> []) by (intros ->; destruct rs; [congruence|discriminate]).
  assert (Hparts' : stripper_parts file' (sr_header r) l).
  { split; [reflexivity|]. split; [exact Hlne|]. split; [exact Hoh|]. intros x' Hx'. destruct (Hgood x' Hx') as (_ & G1 & G2 & _). split; [exact G1|exact G2]. }
  assert (Hend' : ~ finishes_with subevent_mark file').
  { eapply parts_not_finish; [exact Hparts'|]. intros x' Hx'. apply Hgood. exact Hx'. }
  destruct (stripper_read_parts checks n file' _ l Hparts' Hend') as (r' & Ho' & Hh' & _ & _ & Hok & _). split; [|split].
  - rewrite Hfile in Hdet. unfold file'. eapply detect_stripper; [|exact Hdet].
    destruct rs as [|r0 rs]; [congruence|]. destruct (Hb r0 (or_introl eq_refl)) as [[b ->] _]. exists (b ++ concat rs). cbn [concat]. apply app_assoc_reverse.
  - destruct Hok as [e' He'].
    + apply forallb_forall. intros x' Hx'. apply Hgood. exact Hx'.
    + intros Hc. specialize (Hn Hc). unfold text in *. rewrite Hll. exact Hn.
    + eauto.
  - eapply events_again; [exact Hparse|exact Hlen|exact Hll|]. intros i w r0 r1 ev Ew Er Er' Hev. apply (Hall i w r0 r1 Ew Er Er'). exact Hev.
Qed.
End Files.
Arguments one_weight {N}.
