(** Reading the files written by src/bin/classify-events.rs. *)
From Verif Require Import Base BaseProofs Num ModelEvent ModelText SpecText SpecFormats TextProofs ReaderProofs ParserProofs
  ModelHepMC ModelLHEF ModelStripper FormatProofs RecordProofs FileProofs FileProofs2 FileProofs3 ModelIO ModelPartition ModelClassify SpecClassify ClassifyProofs.
From Coq Require Import Lia.

Lemma occurs_join (l t : text) : ~ occurs event_mark l -> ~ occurs event_mark t -> heads (fun c => c <> "E"%char) t -> ~ occurs event_mark (l ++ t).
Proof.
  intros Hl Ht Hh (p & q & E). destruct (app_split_mid _ _ _ _ E) as [(s & Hs & Hq)|(s & Hs & Hq)].
  - destruct s as [|a [|b s]]; cbn in Hq.
    + apply Ht. exists [], q. symmetry. exact Hq.
    + injection Hq as <- Hq. rewrite <- Hq in Hh. apply Hh. reflexivity.
    + injection Hq as <- <- Hq. apply Hl. exists p, s. exact Hs.
  - apply Ht. exists s, q. exact Hq.
Qed.

Lemma full_line_nl r : full_line r -> finishes_with [NL] r.
Proof. intros (a & c & -> & _). exists (a ++ [c]). rewrite <- app_assoc. reflexivity. Qed.

Lemma without_prefix f r r' : without_footer f r r' -> exists z, r = r' ++ z.
Proof. intros [(ws & E & _)|[-> _]]; [eauto|exists []; rewrite app_nil_r; reflexivity]. Qed.

Lemma all_but_last_map {A B} (P : B -> Prop) (g : A -> B) : forall l, (forall x, In x l -> P (g x)) -> forall y, all_but_last P (map g l ++ [y]).
Proof.
  intros l H y a x b E Hb. destruct b as [|b0 b _] using rev_ind; [congruence|].
  replace (a ++ x :: b ++ [b0]) with ((a ++ x :: b) ++ [b0]) in E by (rewrite <- app_assoc; reflexivity).
  apply app_inj_tail in E as [E _]. assert (Hx : In x (map g l)) by (rewrite E; apply in_or_app; right; left; reflexivity).
  apply in_map_iff in Hx as (z & <- & Hz). apply H. exact Hz.
Qed.

Definition hepmc_tail : text := footer_line HepMC2.
Lemma hepmc_tail_shape : hepmc_tail = "H"%char :: tl (get_footer HepMC2) ++ [NL].
Proof. reflexivity. Qed.
Lemma no_nl_tail : ~ In NL (tl (get_footer HepMC2)).
Proof. apply find_char_none. reflexivity. Qed.
Lemma tail_no_event : ~ occurs event_mark hepmc_tail.
Proof. apply find_none. reflexivity. Qed.

Section HepMC.
Context (N : NumOps) (D : N -> Prop) (double : parser N) (show : N -> text) (sort : sorter) (mw : bool).
Hypothesis HT : number_text N D double show.
Let parse := parse_hepmc double mw sort [].

Lemma parse_without r r' : without_footer hepmc_end r r' -> full_line r' -> parse r' = parse r.
Proof.
  intros [(ws & -> & Hw)|[-> _]] Hr'; [|reflexivity]. symmetry.
  apply (parse_footer N D double show sort mw HT (tl hepmc_end) ws no_nl_tail Hw r' Hr').
Qed.
Lemma parse_with r : full_line r -> parse (r ++ hepmc_tail) = parse r.
Proof.
  intros Hr. apply (parse_footer N D double show sort mw HT (tl hepmc_end) [NL] no_nl_tail); [|exact Hr].
  constructor; [left; exact newline_ws|constructor].
Qed.

Lemma utf8_without r r' : without_footer hepmc_end r r' -> utf8 r = true -> utf8 r' = true.
Proof.
  intros [(ws & -> & _)|[-> _]]; [|auto]. change (hepmc_end ++ ws) with ("H"%char :: tl hepmc_end ++ ws). rewrite utf8_cut by reflexivity.
  intros H. apply andb_true_iff in H. tauto.
Qed.

Lemma hepmc_no_events file : ~ occurs event_mark file -> hepmc_records (hepmc_open file) = Some [].
Proof.
  intros H. unfold hepmc_open, hepmc_records. destruct (hepmc_init_spec file) as [[_ ->]|(h & rest & E & [a Ha] & _)]; [reflexivity|].
  exfalso. apply H. exists a, rest. rewrite E, Ha, <- app_assoc. reflexivity.
Qed.

Lemma hepmc_readback file h records sel : hepmc_parts file h records -> forallb utf8 records = true ->
  (forall r, In r sel -> In r records /\ full_line (trim_footer r HepMC2)) ->
  exists rs, hepmc_records (hepmc_open (h ++ concat (map (fun r => trim_footer r HepMC2) sel) ++ hepmc_tail)) = Some rs /\
    Forall2 (fun r' r => parse r' = parse r) rs sel.
Proof.
  intros (Hfile & Hne & Hoh & Hfh & Hb & Hlast) Hu Hsel. rewrite forallb_forall in Hu.
  assert (Hend : forall x : text, ~ finishes_with event_mark (x ++ hepmc_tail)).
  { intros x [a Ha]. rewrite hepmc_tail_shape in Ha.
    replace (x ++ "H"%char :: tl (get_footer HepMC2) ++ [NL]) with ((x ++ "H"%char :: tl (get_footer HepMC2)) ++ [NL]) in Ha by (rewrite <- app_assoc; reflexivity).
    change event_mark with ([NL] ++ ["E"%char]) in Ha. rewrite app_assoc in Ha. apply app_inj_tail in Ha as [_ Ha]. discriminate. }
  destruct sel as [|l sel _] using rev_ind.
  { exists []. split; [|constructor]. apply hepmc_no_events. cbn [map concat app]. apply occurs_join; [exact Hoh|exact tail_no_event|discriminate]. }
  set (tr := fun r => trim_footer r HepMC2).
  assert (Hwf : forall r, without_footer hepmc_end r (tr r)) by (intros r; apply (trim_footer_spec HepMC2); discriminate).
  assert (Hgood : forall r, In r (sel ++ [l]) -> begins_with ["E"%char] (tr r) /\ ~ occurs event_mark (tr r) /\ finishes_with [NL] (tr r) /\ utf8 (tr r) = true /\ parse (tr r) = parse r).
  { intros r Hr. destruct (Hsel r Hr) as [Hin Hfl]. fold (tr r) in Hfl. destruct (Hb r Hin) as [[b Hbb] Ho]. destruct (without_prefix _ _ _ (Hwf r)) as [z Hz].
    split; [|split; [|split; [|split]]].
    - destruct Hfl as (a & c & E & _). rewrite E in Hz |- *. rewrite Hbb in Hz. destruct a as [|a0 a]; cbn in Hz; injection Hz as <- Hz; eexists; reflexivity.
    - intros H. apply Ho. rewrite Hz. apply occurs_app_l. exact H.
    - apply full_line_nl. exact Hfl.
    - eapply utf8_without; [apply Hwf|]. apply Hu. exact Hin.
    - apply parse_without; [apply Hwf|exact Hfl]. }
  assert (Hl : In l (sel ++ [l])) by (apply in_or_app; right; left; reflexivity).
  exists (map tr sel ++ [tr l ++ hepmc_tail]).
  assert (Hp : hepmc_parts (h ++ concat (map tr (sel ++ [l])) ++ hepmc_tail) h (map tr sel ++ [tr l ++ hepmc_tail])).
  { split; [|split; [|split; [|split; [|split]]]].
    - rewrite map_app, !concat_app. cbn [map concat]. rewrite !app_nil_r, <- !app_assoc. reflexivity.
    - destruct sel; discriminate.
    - exact Hoh.
    - exact Hfh.
    - intros r Hr. apply in_app_iff in Hr as [Hr|[<-|[]]].
      + apply in_map_iff in Hr as (x & <- & Hx). destruct (Hgood x) as (H1 & H2 & _); [apply in_or_app; left; exact Hx|]. auto.
      + destruct (Hgood l Hl) as ([b H1] & H2 & H3 & _). split; [rewrite H1; exists (b ++ hepmc_tail); reflexivity|].
        apply occurs_join; [exact H2|exact tail_no_event|discriminate].
    - apply all_but_last_map. intros x Hx. apply (Hgood x). apply in_or_app. left. exact Hx. }
  split.
  - destruct (hepmc_read_parts _ _ _ Hp) as [_ Hr].
    + rewrite app_assoc. apply Hend.
    + replace (forallb utf8 (map tr sel ++ [tr l ++ hepmc_tail])) with true in Hr; [exact Hr|].
      symmetry. apply forallb_forall. intros r Hr'. apply in_app_iff in Hr' as [Hr'|[<-|[]]].
      * apply in_map_iff in Hr' as (x & <- & Hx). apply (Hgood x). apply in_or_app. left. exact Hx.
      * destruct (Hgood l Hl) as (_ & _ & _ & H & _). rewrite hepmc_tail_shape, utf8_cut by reflexivity. rewrite H. reflexivity.
  - apply Forall2_app.
    + clear -Hgood. assert (H : forall r, In r sel -> parse (tr r) = parse r) by (intros r Hr; apply (Hgood r); apply in_or_app; left; exact Hr).
      clear Hgood. induction sel as [|r sel IH]; constructor; [apply H; left; reflexivity|]. apply IH. intros x Hx. apply H. right. exact Hx.
    + constructor; [|constructor]. destruct (Hsel l Hl) as [_ Hfl]. etransitivity; [apply parse_with; exact Hfl|]. apply (Hgood l Hl).
Qed.
End HepMC.

(** *** LHEF *)
Lemma lhef_not_footed r : finishes_with event_end r -> ~ exists y, footed lhef_end r y.
Proof.
  intros [a Ha] (y & ws & E & Hw). rewrite Ha in E.
  assert (E2 : (a ++ removelast event_end) ++ ">"%char :: [] = (y ++ removelast lhef_end) ++ ">"%char :: ws).
  { transitivity (a ++ event_end); [rewrite <- app_assoc; reflexivity|]. rewrite E, <- !app_assoc. reflexivity. }
  apply white_end in E2; auto; try (apply is_white_false; reflexivity). destruct E2 as [E2 _].
  change (removelast event_end) with (removelast (removelast event_end) ++ ["t"%char]) in E2.
  change (removelast lhef_end) with (removelast (removelast lhef_end) ++ ["s"%char]) in E2.
  rewrite !app_assoc in E2. apply app_inj_tail in E2 as [_ E2]. discriminate.
Qed.
Lemma lhef_trim r : finishes_with event_end r -> trim_footer r Lhef = r.
Proof.
  intros H. apply lhef_not_footed in H. destruct (trim_footer_spec Lhef r) as [Hf|[E _]]; [discriminate| |exact E].
  exfalso. apply H. eexists. exact Hf.
Qed.
Lemma lhef_readback file h records tail sel : lhef_parts file h records tail -> forallb utf8 records = true ->
  (forall r, In r sel -> In r records) ->
  lhef_records (lhef_open (h ++ concat (map (fun r => trim_footer r Lhef) sel) ++ footer_line Lhef)) = Some sel.
Proof.
  intros (Hfile & Hh & Hr & Ht) Hu Hsel. rewrite forallb_forall in Hu.
  replace (map (fun r => trim_footer r Lhef) sel) with sel.
  2:{ transitivity (map (fun r => r) sel); [symmetry; apply map_id|]. apply map_ext_in. intros r Hin. symmetry. apply lhef_trim. apply (Hr r). auto. }
  destruct (lhef_read_parts (h ++ concat sel ++ footer_line Lhef) h sel (footer_line Lhef)) as [_ ->].
  - split; [reflexivity|]. split; [exact Hh|]. split; [auto|]. apply find_none. reflexivity.
  - replace (forallb utf8 sel) with true; [reflexivity|]. symmetry. apply forallb_forall. auto.
Qed.
