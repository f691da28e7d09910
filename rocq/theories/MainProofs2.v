(** Proofs about ModelMain.v: several files, and the program as a whole. *)
From Verif Require Import Base BaseProofs Num ModelEvent ModelText SpecText SpecFormats SpecHepMC TextProofs ReaderProofs ParserProofs
  ModelHepMC HepMCProofs HepMCProofs2 HepMCProofs3 ModelLHEF ModelStripper FormatProofs ModelIO SpecIO FileProofs FileProofs2 FileProofs3 IOProofs
  PropsHepMC PropsFormats ModelCres SpecCres CresProofs ModelMain SpecMain MainProofs.
From Coq Require Import Lia.

Section Main.
Context (N : NumOps) (D : N -> Prop) (double : parser N) (show : N -> text) (xml : text -> option (xml_tag N))
  (checks mw : bool) (names : list text) (sort : sorter).
Hypothesis HT : number_text N D double show.
Hypothesis Hmode : mw = false \/ names = [].
Hypothesis Hxml : stops_at_tag xml.
Notation xi := (header_info xml).
Notation build := (build_from_files xi checks).
Notation fnext := (fio_next double show checks).
Notation cnext := (cio_next double show xi checks).
Notation conv := (try_convert double mw names sort).

(** *** Reading, with the formats of the records *)
Section Read.
Context (scaling : list (text * N)).
Definition file_recs (file : text) (recs : list event_record) : Prop :=
  exists items f, file_items double show xi checks scaling file items /\ build scaling file = Ok f /\ recs = map (record_of f) items.
Definition after_recs (files : list text) (i : nat) (recs : list event_record) : Prop :=
  exists ls, recs = concat ls /\ Forall2 file_recs (skipn i files) ls.

Lemma fnext_record f x f1 : fnext f = Item x f1 -> record_of f1 = record_of f.
Proof.
  destruct f as [r|r|r scale]; cbn.
  - destruct (hepmc_next r) as [[[y|] r']|]; intros H; inversion H; reflexivity.
  - destruct (lhef_next r) as [[[y|] r']|]; intros H; inversion H; reflexivity.
  - destruct (stripper_read_raw checks r) as [|y r1|r1|]; try (intros H; discriminate H). destruct (rescale_weight double show scale y); intros H; inversion H; reflexivity.
Qed.
Lemma read_one files : forall fuel s f, wf N files s -> c_current s = Some f -> length files <= c_idx s + fuel + 1 -> c_idx s < length files ->
  forall l r2 f', delivers fnext f l f' -> after_recs files (S (c_idx s)) r2 ->
  match map (record_of f) l ++ r2 with
  | [] => exists s', cnext scaling fuel s = Finished s' /\ wf N files s'
  | x :: rest => exists s' g t, cnext scaling fuel s = Item t s' /\ wf N files s' /\ c_current s' = Some g /\ c_idx s' < length files /\ x = record_of g t /\
      exists l' r2' g', rest = map (record_of g) l' ++ r2' /\ delivers fnext g l' g' /\ after_recs files (S (c_idx s')) r2'
  end.
Proof.
  induction fuel as [|fuel IH]; intros s f Hw Hc Hfuel Hidx l r2 f' Hd Ha.
  - assert (Hlast : c_idx s + 1 = length files) by lia. destruct Hd as [f f1 H|f x f1 l f' H Hd].
    + assert (r2 = []) as ->. { destruct Ha as (ls & -> & Hf). rewrite skipn_all2 in Hf by lia. inversion Hf. reflexivity. }
      cbn [app map]. eexists. split; [cbn [cio_next]; rewrite Hc, H, (proj1 Hw), Hlast, Nat.eqb_refl; reflexivity|].
      split; [reflexivity|exact (proj2 Hw)].
    + cbn [app map]. eexists _, f1, x. split; [cbn [cio_next]; rewrite Hc, H; reflexivity|]. cbn. rewrite (proj1 Hw).
      split; [split; [reflexivity|exact (proj2 Hw)]|]. split; [reflexivity|]. split; [exact Hidx|]. rewrite (fnext_record _ _ _ H). split; [reflexivity|].
      exists l, r2, f'. auto.
  - destruct Hd as [f f1 H|f x f1 l f' H Hd].
    + cbn [app map]. destruct (Nat.eq_dec (c_idx s + 1) (length files)) as [Hlast|Hlast].
      * assert (r2 = []) as ->. { destruct Ha as (ls & -> & Hf). rewrite skipn_all2 in Hf by lia. inversion Hf. reflexivity. }
        eexists. split; [cbn [cio_next]; rewrite Hc, H, (proj1 Hw), Hlast, Nat.eqb_refl; reflexivity|].
        split; [reflexivity|exact (proj2 Hw)].
      * destruct (nth_error files (c_idx s + 1)) as [file|] eqn:En; [|apply nth_error_None in En; lia].
        destruct Ha as (ls & -> & Hf). replace (S (c_idx s)) with (c_idx s + 1) in Hf by lia. rewrite (skipn_nth_cons _ _ _ _ En) in Hf.
        inversion Hf as [|? li ? ls' (items & g & Hi & Hb & ->) Hls]; subst. destruct (items_next N double show xi checks scaling _ _ Hi) as (g0 & g' & Hb' & Hg).
        rewrite Hb in Hb'. injection Hb' as <-.
        destruct (open_ok N xi checks scaling files s _ file g Hw En Hb) as (outs & _ & Hlo & Ho).
        assert (Hstep : cnext scaling (S fuel) s = cnext scaling fuel (mkCIO files (Some g) (c_idx s + 1) (c_nread s) (c_hint s) outs)).
        { cbn [cio_next]. rewrite Hc, H. rewrite (proj1 Hw). replace (c_idx s + 1 =? length files) with false by (symmetry; apply Nat.eqb_neq; exact Hlast).
          rewrite Ho. reflexivity. }
        rewrite Hstep. cbn [concat].
        specialize (IH (mkCIO files (Some g) (c_idx s + 1) (c_nread s) (c_hint s) outs) g (conj eq_refl Hlo) eq_refl).
        cbn [c_idx] in IH. apply (IH ltac:(lia) ltac:(lia) items (concat ls') g' Hg).
        exists ls'. split; [reflexivity|]. exact Hls.
    + cbn [app map]. eexists _, f1, x. split; [cbn [cio_next]; rewrite Hc, H; reflexivity|]. cbn. rewrite (proj1 Hw).
      split; [split; [reflexivity|exact (proj2 Hw)]|]. split; [reflexivity|]. split; [exact Hidx|]. rewrite (fnext_record _ _ _ H). split; [reflexivity|].
      exists l, r2, f'. auto.
Qed.

Lemma read_all_rest files : forall recs s f, wf N files s -> c_current s = Some f -> c_idx s < length files ->
  (exists l r2 f', recs = map (record_of f) l ++ r2 /\ delivers fnext f l f' /\ after_recs files (S (c_idx s)) r2) ->
  exists s', read_all double show xml checks scaling (S (length recs)) s = Some (map inl recs, s') /\ wf N files s'.
Proof.
  induction recs as [|x recs IH]; intros s f Hw Hc Hidx (l & r2 & f' & Hi & Hd & Ha);
    pose proof (read_one files (cio_fuel s) s f Hw Hc) as Hone; unfold cio_fuel in Hone at 1; rewrite (proj1 Hw) in Hone at 1; specialize (Hone ltac:(lia) Hidx l r2 f' Hd Ha);
    rewrite <- Hi in Hone.
  - destruct Hone as (s' & H & Hw'). exists s'. split; [cbn [read_all length map]; rewrite H; reflexivity|exact Hw'].
  - destruct Hone as (s1 & g & t & H & Hw1 & Hc1 & Hidx1 & Hx & Hrest).
    destruct (IH s1 g Hw1 Hc1 Hidx1 Hrest) as (s' & Hr & Hw'). exists s'. split; [|exact Hw'].
    cbn [length map]. change (S (S (length recs))) with (S (length (x :: recs))). cbn [read_all]. rewrite H, Hc1. cbn [length]. rewrite Hr, Hx. reflexivity.
Qed.
Lemma read_all_mono : forall fuel s r fuel', read_all double show xml checks scaling fuel s = Some r -> fuel <= fuel' ->
  read_all double show xml checks scaling fuel' s = Some r.
Proof.
  induction fuel as [|fuel IH]; intros s r [|fuel'] H Hle; try discriminate; [lia|]. cbn [read_all] in *.
  destruct (cnext scaling (cio_fuel s) s) as [s1|t s1|e s1|]; auto. destruct (c_current s1); [|discriminate].
  destruct (read_all double show xml checks scaling fuel s1) as [p|] eqn:E; [|discriminate].
  rewrite (IH s1 _ fuel' E ltac:(lia)). exact H.
Qed.
Lemma files_build files recss : Forall2 file_recs files recss -> forall j file, nth_error files j = Some file -> exists f, build scaling file = Ok f.
Proof. intros Hf j file E. destruct (Forall2_nth _ _ _ _ _ Hf j file E) as (l & _ & (items & f & _ & Hb & _)). eauto. Qed.
Lemma read_files files recss s : Forall2 file_recs files recss -> cio_new xi checks scaling files = Ok s ->
  exists s', wf N files s' /\ forall fuel, length (concat recss) < fuel -> read_all double show xml checks scaling fuel s = Some (map inl (concat recss), s').
Proof.
  intros Hf Hn. destruct (new_ok N xi checks scaling files (files_build _ _ Hf)) as (s0 & Hs0 & Hw & Hr & Hcase & _). rewrite Hn in Hs0. injection Hs0 as <-.
  assert (H : exists s', read_all double show xml checks scaling (S (length (concat recss))) s = Some (map inl (concat recss), s') /\ wf N files s').
  { destruct Hcase as [[-> Hc]|(file & f & E0 & Hbf & Hc & Hi)].
    - inversion Hf; subst. exists s. split; [|exact Hw]. cbn [concat length map read_all]. unfold cio_fuel. cbn [cio_next]. rewrite Hc, (proj1 Hw). reflexivity.
    - destruct files as [|file0 files]; [discriminate|]. injection E0 as ->. inversion Hf as [|? l0 ? ls' (items & g & Hit & Hb & ->) Hls]; subst.
      rewrite Hbf in Hb. injection Hb as <-. destruct (items_next N double show xi checks scaling _ _ Hit) as (g & g' & Hg & Hd). rewrite Hbf in Hg. injection Hg as <-.
      apply (read_all_rest (file :: files) _ s f Hw Hc); [rewrite Hi; cbn; lia|]. exists items, (concat ls'), g'. split; [reflexivity|]. split; [exact Hd|].
      exists ls'. split; [reflexivity|]. rewrite Hi. exact Hls. }
  destruct H as (s' & Hr' & Hw'). exists s'. split; [exact Hw'|]. intros fuel Hfuel. eapply read_all_mono; [exact Hr'|lia].
Qed.
Lemma read_files_unique files recss s fuel r : Forall2 file_recs files recss -> cio_new xi checks scaling files = Ok s ->
  read_all double show xml checks scaling fuel s = Some r -> fst r = map inl (concat recss) /\ wf N files (snd r).
Proof.
  intros Hf Hn Hr. destruct (read_files files recss s Hf Hn) as (s' & Hw & H).
  pose proof (read_all_mono fuel s r (S (fuel + length (concat recss))) Hr ltac:(lia)) as Hr2.
  rewrite H in Hr2 by lia. injection Hr2 as <-. auto.
Qed.

(** opening all files succeeds only if it does for each *)
Lemma init_loop_build files : forall n i s s', wf N files s -> i + n = length files -> cio_init_loop xi checks scaling i n s = Ok s' ->
  forall j file, i <= j -> nth_error files j = Some file -> exists f, build scaling file = Ok f.
Proof.
  induction n as [|n IH]; intros i s s' Hw Hin H j file Hj Hf.
  - exfalso. assert (j < length files) by (apply nth_error_Some; congruence). lia.
  - cbn [cio_init_loop] in H. destruct (cio_open xi checks scaling i s) as [s1|e|] eqn:E; try discriminate. cbn [bind] in H.
    destruct (open_inv N xi checks scaling files s i s1 Hw E) as (Hw1 & file1 & f1 & En & Hb & Hc & _). rewrite Hc in H.
    destruct (Nat.eq_dec i j) as [<-|Hne].
    + rewrite En in Hf. injection Hf as <-. eauto.
    + eapply IH; [|idtac|exact H| |exact Hf]; [exact Hw1|lia|lia].
Qed.
Lemma new_build files s : cio_new xi checks scaling files = Ok s -> forall j file, nth_error files j = Some file -> exists f, build scaling file = Ok f.
Proof.
  unfold cio_new, cio_init. cbn [c_files]. intros H j file Hf. destruct files as [|file0 files0] eqn:Ef; [destruct j; discriminate|]. rewrite <- Ef in *.
  replace (length files =? 0) with false in H by (subst; reflexivity).
  destruct (cio_init_loop xi checks scaling 0 (length files) _) as [s1|e|] eqn:E; try discriminate.
  eapply (init_loop_build files (length files) 0); [|reflexivity|exact E|lia|exact Hf]. split; [reflexivity|]. apply repeat_length.
Qed.

(** *** A single file *)
Lemma as_result_inl A (x : res A) a : as_result x = inl a <-> x = Ok a.
Proof. destruct x; cbn; split; intros H; inversion H; reflexivity. Qed.
Lemma Forall2_weaken A B (P Q : A -> B -> Prop) l m : (forall a b, P a b -> Q a b) -> Forall2 P l m -> Forall2 Q l m.
Proof. induction 2; constructor; auto. Qed.
Lemma Forall2_map_l A B C (g : A -> B) (P : B -> C -> Prop) : forall l m, Forall2 P (map g l) m <-> Forall2 (fun a c => P (g a) c) l m.
Proof.
  induction l as [|a l IH]; intros m; split; intros H; inversion H; subst; constructor; auto; apply IH; assumption.
Qed.
Lemma rescaled_all scale : forall records, (forall x, In x records -> exists pre num post v, stripper_weight x pre num post /\ double num = Some (v, [])) ->
  exists items, Forall2 (fun x y => rescale_weight double show scale x = Ok y) records items.
Proof.
  induction records as [|x records IH]; intros H; [exists []; constructor|].
  destruct (H x (or_introl eq_refl)) as (pre & num & post & v & Hsw & Hd). destruct IH as [items Hi]; [intros; apply H; right; assumption|].
  eexists. constructor; [|exact Hi]. unfold rescale_weight. apply (stripper_replace N D double show HT _ pre num post v); assumption.
Qed.
Lemma build_header file r scale : build scaling file = Ok (IOStripper r scale) -> exists name nev n s,
  stripper_init checks file = Some (sr_header r, s) /\ xml (sr_header r) = Some (XEventrecord name nev n) /\
  lookup_scale scaling name = Some scale /\ r = mkSReader file s n (sr_header r) /\ stripper_open checks n file = Some r.
Proof.
  unfold build_from_files, stripper_open. destruct (detect_event_file_format file); try discriminate. destruct (stripper_init checks file) as [[h s]|]; [|discriminate].
  destruct (header_info xml h) as [[n k]|] eqn:E; [|discriminate]. destruct (lookup_scale scaling n) eqn:El; [|discriminate]. intros H. injection H as <- <-.
  unfold header_info in E. destruct (xml h) as [[?|name nev k']|] eqn:Ex; try discriminate. injection E as -> ->. exists n, nev, k, s. cbn. auto.
Qed.
Lemma file_ready file f : well_formed D double xml checks scaling file -> build scaling file = Ok f ->
  exists records items, file_records xi checks scaling file records /\ file_items double show xi checks scaling file items /\ length items = length records.
Proof.
  intros [Hu Hwf] Hb. unfold file_items, file_records.
  destruct (detect_event_file_format file) eqn:Ed.
  - assert (Hr : exists records, hepmc_records (hepmc_open file) = Some records).
    { destruct (find event_mark file) eqn:E.
      - apply find_some in E as (a & b & E & _). destruct (C31_lossless file) as (rs & Hrs & _); [exact Hu|exists a, b; exact E|exact Hwf|]. eauto.
      - apply find_none in E. exists []. apply C31_no_event. exact E. }
    destruct Hr as [rs Hrs]. exists rs, rs. split; [exact Hrs|]. split; [|reflexivity]. exists rs. split; [exact Hrs|].
    unfold build_from_files. rewrite Ed. reflexivity.
  - destruct Hwf as [Ho _]. destruct (C34_lossless file Ho Hu) as (rs & tail & Hrs & _). exists rs, rs. split; [exact Hrs|]. split; [|reflexivity].
    exists rs. split; [exact Hrs|]. unfold build_from_files. rewrite Ed. reflexivity.
  - contradiction.
  - destruct Hwf as (Hocc & Hend & Hwf). assert (exists r scale, f = IOStripper r scale) as (r & scale & ->).
    { unfold build_from_files in Hb. rewrite Ed in Hb. destruct (stripper_init checks file) as [[h s]|]; [|discriminate].
      destruct (header_info xml h) as [[n k]|]; [|discriminate]. destruct (lookup_scale scaling n); [|discriminate]. injection Hb as <-. eauto. }
    destruct (build_header _ _ _ Hb) as (name & nev & n & s & Hinit & Hx & Hl & Hr & Hopen).
    destruct (stripper_parts_exist checks n file r Hopen Hocc Hend) as (rs & Hparts & Hok & _).
    destruct (Hwf _ _ Hparts _ _ _ Hx) as [Hn Hws]. specialize (Hws _ Hl).
    assert (Hu8 : forallb utf8 rs = true).
    { destruct Hparts as (Hfile & Hne & _ & Hbg). rewrite <- (utf8_concat (fun _ => True) "<"%char rs ltac:(reflexivity)).
      - destruct rs as [|r0 rs]; [congruence|]. destruct (Hbg r0 (or_introl eq_refl)) as [[b Hb0] _]. rewrite Hb0 in Hfile |- *. cbn [concat app] in *.
        rewrite Hfile in Hu. change (subevent_start ++ b) with ("<"%char :: lit "se" ++ b) in *. cbn [app] in *. rewrite utf8_cut in Hu by reflexivity. apply andb_true_iff in Hu as [_ Hu]. exact Hu.
      - intros x Hx'. destruct (Hbg x Hx') as [[b ->] _]. exists (lit "se" ++ b). reflexivity. }
    destruct (Hok Hu8 Hn) as [e He]. destruct (rescaled_all scale rs) as [items Hi].
    { intros x Hx'. destruct (Hws x Hx') as (pre & num & post & v & H1 & H2 & _). eauto 10. }
    exists rs, items. split; [eauto|]. split; [|symmetry; eapply Forall2_len; exact Hi]. exists rs. split; [eauto|]. rewrite Hb. exact Hi.
Qed.

Lemma writable_one ws : writable D scaling ws -> one_weight D ws.
Proof. intros [->|(w & -> & Hw & _)]; [left; reflexivity|right; eauto]. Qed.
Lemma lookup_in name scale : lookup_scale scaling name = Some scale -> exists n, In (n, scale) scaling.
Proof.
  unfold lookup_scale. match goal with |- context[List.find ?p scaling] => destruct (List.find p scaling) as [[n x]|] eqn:E end; [|discriminate].
  intros H. injection H as <-. apply List.find_some in E as [E _]. eauto.
Qed.

(** the header that two files share *)
Definition same_tag (file file' : text) : Prop :=
  detect_event_file_format file' = detect_event_file_format file /\
  (detect_event_file_format file = StripperXml -> exists h x y name nev n, file = h ++ x /\ file' = h ++ y /\ xml h = Some (XEventrecord name nev n)).

Lemma file_round file recs evs ws : well_formed D double xml checks scaling file -> file_recs file recs ->
  Forall2 (fun r ev => conv r = inl ev) recs evs -> length ws = length recs -> Forall (writable D scaling) ws ->
  exists records file' n recs', file_records xi checks scaling file records /\ length records = length recs /\
    file_rewrite double show xi checks mw names scaling file ws = Ok (file', n) /\ same_tag file file' /\
    file_recs file' recs' /\ Forall2 (fun r ev => conv r = inl ev) recs' (reweighted_all evs ws).
Proof.
  intros [Hu Hwf] (items & f & (records & Hrec & Hitems) & Hb & ->) Hconv Hlen Hw. rewrite map_length in Hlen |- *. rewrite Hb in Hitems.
  rewrite Forall2_map_l in Hconv. destruct (records_raw N xi checks scaling file records Hrec) as (f0 & fe & Hb0 & Hd). rewrite Hb in Hb0. injection Hb0 as <-.
  assert (Hlr : length records = length items).
  { destruct f; [rewrite Hitems; reflexivity..|]. eapply Forall2_len. exact Hitems. }
  exists records. pose proof (file_rewrite_list N double show xi checks mw names scaling file records f fe ws Hrec Hb Hd) as Hrw.
  rewrite Hrw by (unfold text in *; lia). clear Hrw.
  unfold file_records in Hrec. destruct (detect_event_file_format file) eqn:Ed.
  - unfold build_from_files in Hb. rewrite Ed in Hb. injection Hb as <-. subst items. cbn [fio_header fio_finish] in *.
    destruct (hepmc_again N D double show sort mw names HT Hmode file records ws evs Hwf Ed Hrec) as (l & Hl & Hdet & Hrl & Hall); [unfold text in *; lia| | |].
    + eapply Forall_impl; [|exact Hw]. exact writable_one.
    + eapply Forall2_weaken; [|exact Hconv]. intros r ev H. cbn in H. apply as_result_inl in H. exact H.
    + change (upd N double show mw names (IOHepMC (hepmc_open file))) with (hepmc_update (N := N) show mw names). rewrite Hl. cbn [bind]. rewrite app_nil_r. set (file' := rd_header (hepmc_open file) ++ concat l) in *. exists file', (length l), (map HepMCRecord l).
      split; [unfold file_records; rewrite Ed; exact Hrec|]. split; [exact Hlr|]. split; [reflexivity|]. split; [split; [congruence|rewrite Ed; discriminate]|].
      assert (Hb' : build scaling file' = Ok (IOHepMC (hepmc_open file'))) by (unfold build_from_files; rewrite Hdet; reflexivity). split.
      * exists l, (IOHepMC (hepmc_open file')). split; [|split; [exact Hb'|reflexivity]]. exists l. split; [unfold file_records; rewrite Hdet; exact Hrl|]. rewrite Hb'. reflexivity.
      * apply Forall2_map_l. eapply Forall2_weaken; [|exact Hall]. intros r ev H. cbn. apply as_result_inl. exact H.
  - unfold build_from_files in Hb. rewrite Ed in Hb. injection Hb as <-. subst items. cbn [fio_header fio_finish] in *.
    destruct Hwf as [Hocc Hnl]. destruct (C34_lossless file Hocc Hu) as (rs & tail & Hrs & Hparts). rewrite Hrec in Hrs. injection Hrs as <-.
    destruct (lhef_again N D double show sort mw HT file records ws evs Hocc Ed Hrec (Hnl _ _ _ Hparts)) as (l & Hl & Hdet & Hrl & Hall); [unfold text in *; lia| | |].
    + eapply Forall_impl; [|exact Hw]. exact writable_one.
    + eapply Forall2_weaken; [|exact Hconv]. intros r ev H. cbn in H. apply as_result_inl in H. exact H.
    + change (upd N double show mw names (IOLhef (lhef_open file))) with (lhef_update (N := N) show mw).
      rewrite Hl. cbn [bind]. set (file' := rd_header (lhef_open file) ++ concat l ++ lhef_footer) in *. exists file', (length l), (map LHEFRecord l).
      split; [unfold file_records; rewrite Ed; exact Hrec|]. split; [exact Hlr|]. split; [reflexivity|]. split; [split; [congruence|rewrite Ed; discriminate]|].
      assert (Hb' : build scaling file' = Ok (IOLhef (lhef_open file'))) by (unfold build_from_files; rewrite Hdet; reflexivity). split.
      * exists l, (IOLhef (lhef_open file')). split; [|split; [exact Hb'|reflexivity]]. exists l. split; [unfold file_records; rewrite Hdet; exact Hrl|]. rewrite Hb'. reflexivity.
      * apply Forall2_map_l. eapply Forall2_weaken; [|exact Hall]. intros r ev H. cbn. apply as_result_inl. exact H.
  - contradiction.
  - destruct Hrec as (r & scale & e & Hb' & Hrs). rewrite Hb in Hb'. injection Hb' as ->. destruct Hwf as (Hocc & Hend & Hwf).
    destruct (build_header _ _ _ Hb) as (name & nev & n & s & Hinit & Hx & Hl & Hr & Hopen).
    destruct (stripper_parts_exist checks n file r Hopen Hocc Hend) as (rs & Hparts & _ & Honly). destruct (Honly _ _ Hrs) as [-> Hu8].
    destruct (Hwf _ _ Hparts _ _ _ Hx) as [Hn Hws]. specialize (Hws _ Hl). destruct (lookup_in _ _ Hl) as [name0 Hin].
    destruct (stripper_again N D double show sort checks mw HT scale n file r rs e ws evs Hopen Ed Hocc Hend Hrs Hn) as (l & Hul & Hdet & (r' & e' & Hopen' & Hh' & Hrl) & Hall).
    + unfold text in *; lia.
    + eapply Forall_impl; [|exact Hw]. intros wl [->|(w & -> & Hw1 & Hw2)]; [left; reflexivity|]. right. exists w. split; [reflexivity|]. split; [exact Hw1|]. exact (Hw2 _ _ Hin).
    + exact Hws.
    + clear -Hitems Hconv. revert evs Hconv. induction Hitems as [|x y rs items Hxy _ IH]; intros evs H; inversion H as [|? ev ? evs' Hev Hevs]; subst; constructor.
      * unfold read_scaled. rewrite Hxy. cbn in *. apply as_result_inl in Hev. exact Hev.
      * apply IH. exact Hevs.
    + change (upd N double show mw names (IOStripper r scale)) with (stripper_update double show mw scale). cbn [fio_header fio_finish].
      rewrite Hul. cbn [bind]. rewrite app_nil_r. set (file' := sr_header r ++ concat l) in *.
      assert (Hb' : build scaling file' = Ok (IOStripper r' scale)).
      { unfold build_from_files. rewrite Hdet. unfold stripper_open in Hopen'. destruct (stripper_init checks file') as [[h' s']|]; [|discriminate].
        injection Hopen' as <-. cbn [sr_header] in Hh'. subst h'. unfold header_info. rewrite Hx, Hl. reflexivity. }
      assert (Hitems' : exists items', Forall2 (fun x y => rescale_weight double show scale x = Ok y) l items' /\
                Forall2 (fun i ev => parse_stripper_xml double mw sort i = Ok ev) items' (reweighted_all evs ws)).
      { clear -Hall. revert Hall. generalize (reweighted_all evs ws). induction l as [|x l IH]; intros evs' H; inversion H as [|? ev ? evs2 Hev Hevs]; subst.
        - exists []. split; constructor.
        - destruct (IH _ Hevs) as (items' & H1 & H2). unfold read_scaled in Hev. destruct (rescale_weight double show scale x) as [y|er|] eqn:E; try discriminate.
          exists (y :: items'). split; constructor; assumption. }
      destruct Hitems' as (items' & Hi1 & Hi2). exists file', (length l), (map StripperXmlRecord items').
      split; [unfold file_records; rewrite Ed; eauto|]. split; [exact Hlr|]. split; [reflexivity|]. split.
      { split; [congruence|]. intros _. destruct Hparts as (Hfile & _). exists (sr_header r), (concat rs), (concat l), name, nev, n. auto. }
      split.
      * exists items', (IOStripper r' scale). split; [|split; [exact Hb'|reflexivity]]. exists l. split; [unfold file_records; rewrite Hdet; eauto|]. rewrite Hb'. exact Hi1.
      * apply Forall2_map_l. eapply Forall2_weaken; [|exact Hi2]. intros i ev H. cbn. apply as_result_inl. exact H.
Qed.

(** *** Several files *)
Lemma reweighted_app (e1 e2 : list (Event N)) w1 w2 : length e1 = length w1 ->
  reweighted_all (e1 ++ e2) (w1 ++ w2) = reweighted_all e1 w1 ++ reweighted_all e2 w2.
Proof.
  intros H. unfold reweighted_all. revert w1 H. induction e1 as [|e e1 IH]; intros [|w w1] H; try discriminate; [reflexivity|].
  cbn [app combine map]. f_equal. apply IH. cbn in H. lia.
Qed.
Lemma round_files : forall inputs files tags, event_files xml inputs = Ok (files, tags) -> Forall (well_formed D double xml checks scaling) files ->
  forall recss, Forall2 file_recs files recss -> forall evs W, Forall2 (fun r ev => conv r = inl ev) (concat recss) evs ->
  length W = length (concat recss) -> Forall (writable D scaling) W ->
  exists recordss rs recss', Forall2 (file_records xi checks scaling) files recordss /\
    sequence (map (fun x => file_rewrite double show xi checks mw names scaling (fst x) (snd x)) (combine files (deal (map (@length text) recordss) W))) = Ok rs /\
    event_files xml (replace_events xml inputs (map fst rs)) = Ok (map fst rs, tags) /\
    Forall2 file_recs (map fst rs) recss' /\ Forall2 (fun r ev => conv r = inl ev) (concat recss') (reweighted_all evs W).
Proof.
  induction inputs as [|file inputs IH]; intros files tags He Hwf recss Hrecs evs W Hconv Hlen HW.
  - injection He as <- <-. inversion Hrecs; subst. inversion Hconv; subst. exists [], [], []. repeat split; constructor.
  - assert (Hstep : forall rest ts, event_files xml inputs = Ok (rest, ts) -> files = file :: rest ->
      exists recordss rs recss', Forall2 (file_records xi checks scaling) files recordss /\
        sequence (map (fun x => file_rewrite double show xi checks mw names scaling (fst x) (snd x)) (combine files (deal (map (@length text) recordss) W))) = Ok rs /\
        (exists out outs, map fst rs = out :: outs /\ same_tag file out /\ event_files xml (replace_events xml inputs outs) = Ok (outs, ts)) /\
        Forall2 file_recs (map fst rs) recss' /\ Forall2 (fun r ev => conv r = inl ev) (concat recss') (reweighted_all evs W)).
    { intros rest ts Hr ->. inversion Hwf as [|? ? Hwf1 Hwf2]; subst. inversion Hrecs as [|? r1 ? recss2 Hr1 Hr2]; subst. cbn [concat] in Hconv, Hlen.
      rewrite app_length in Hlen. apply Forall2_app_inv_l in Hconv as (e1 & e2 & Hc1 & Hc2 & ->).
      pose proof (firstn_skipn (length r1) W) as HWs. set (w1 := firstn (length r1) W) in *. set (w2 := skipn (length r1) W) in *.
      assert (Hl1 : length w1 = length r1) by (unfold w1; rewrite firstn_length; lia). assert (Hl2 : length w2 = length (concat recss2)) by (unfold w2; rewrite skipn_length; lia).
      rewrite <- HWs in HW. apply Forall_app in HW as [HW1 HW2].
      destruct (file_round file r1 e1 w1 Hwf1 Hr1 Hc1 Hl1 HW1) as (records & file' & n & recs' & Hrec & Hlr & Hrw & Htag & Hfr & Hcv).
      destruct (IH rest ts Hr Hwf2 recss2 Hr2 e2 w2 Hc2 Hl2 HW2) as (recordss & rs & recss' & H1 & H2 & H3 & H4 & H5).
      exists (records :: recordss), ((file', n) :: rs), (recs' :: recss'). split; [constructor; assumption|]. split; [|split; [|split]].
      - cbn [map deal combine sequence fst snd]. replace (length records) with (length r1) by (symmetry; exact Hlr). fold w1 w2. rewrite Hrw. cbn [bind]. rewrite H2. reflexivity.
      - exists file', (map fst rs). auto.
      - cbn [map fst]. constructor; assumption.
      - cbn [concat]. rewrite <- HWs, reweighted_app; [apply Forall2_app; assumption|]. rewrite Hl1. symmetry. eapply Forall2_len. exact Hc1. }
    cbn [event_files] in He. destruct (is_xml file) eqn:Ex.
    + destruct (xml file) as [[name scale|name nev n]|] eqn:Et; try discriminate.
      * destruct (event_files xml inputs) as [[rest ts]|er|] eqn:Er; try discriminate. cbn [bind] in He. injection He as <- <-.
        destruct (IH rest ts eq_refl Hwf recss Hrecs evs W Hconv Hlen HW) as (recordss & rs & recss' & H1 & H2 & H3 & H4 & H5).
        exists recordss, rs, recss'. split; [exact H1|]. split; [exact H2|]. split; [|auto]. cbn [replace_events event_files]. rewrite Ex, Et.
        cbn [event_files]. rewrite Ex, Et, H3. reflexivity.
      * destruct (event_files xml inputs) as [[rest ts]|er|] eqn:Er; try discriminate. cbn [bind] in He. injection He as <- <-.
        destruct (Hstep rest ts eq_refl eq_refl) as (recordss & rs & recss' & H1 & H2 & (out & outs & Ho & [Hdet Htag] & H3) & H4 & H5).
        exists recordss, rs, recss'. split; [exact H1|]. split; [exact H2|]. split; [|auto]. rewrite Ho. cbn [replace_events]. rewrite Ex, Et. cbn [event_files].
        assert (Eo : is_xml out = true) by (rewrite is_xml_format in *; rewrite Hdet; exact Ex). rewrite Eo, H3. rewrite is_xml_format in Ex.
        destruct (detect_event_file_format file) eqn:Ed; try discriminate. destruct (Htag eq_refl) as (h & x & y & name' & nev' & n' & E1 & E2 & E3).
        rewrite E2, (Hxml _ _ _ _ _ E3). rewrite E1, (Hxml _ _ _ _ _ E3) in Et. injection Et as -> -> ->. reflexivity.
    + destruct (event_files xml inputs) as [[rest ts]|er|] eqn:Er; try discriminate. cbn [bind] in He. injection He as <- <-.
      destruct (Hstep rest ts eq_refl eq_refl) as (recordss & rs & recss' & H1 & H2 & (out & outs & Ho & [Hdet Htag] & H3) & H4 & H5).
      exists recordss, rs, recss'. split; [exact H1|]. split; [exact H2|]. split; [|auto]. rewrite Ho. cbn [replace_events]. rewrite Ex. cbn [event_files].
      assert (Eo : is_xml out = false) by (rewrite is_xml_format in *; rewrite Hdet; exact Ex). rewrite Eo, H3. reflexivity.
Qed.
Lemma files_recs files : Forall (well_formed D double xml checks scaling) files -> (forall j file, nth_error files j = Some file -> exists f, build scaling file = Ok f) ->
  exists recss, Forall2 file_recs files recss.
Proof.
  induction 1 as [|file files Hwf _ IH]; intros Hb; [exists []; constructor|]. destruct (Hb 0 file eq_refl) as [f Hf].
  destruct (file_ready file f Hwf Hf) as (records & items & _ & Hi & _). destruct IH as [recss Hr]; [intros j; apply (Hb (S j))|].
  exists (map (record_of f) items :: recss). constructor; [|exact Hr]. exists items, f. auto.
Qed.
End Read.

(** *** The program *)
Section Program.
Context (cluster : Event N -> option (Event N))
  (shuffle : list (Event N + @cres_error (option read_error)) -> list (Event N + @cres_error (option read_error)))
  (resample unweighter : list (Event N) -> option (list (Event N) + option read_error)).
Hypothesis Hshuffle : reorders shuffle.
Hypothesis Hsort : sort_ok sort.
Notation program := (cres_program double show xml checks mw names sort cluster shuffle resample unweighter).
Notation run := (run_on double mw names sort cluster shuffle resample unweighter).

Lemma program_round fuel inputs files tags outs : event_files xml inputs = Ok (files, tags) ->
  Forall (well_formed D double xml checks (extract_scaling tags)) files -> program fuel inputs = Done outs ->
  exists records evs W, run (map inl records) = Wrote W /\ Forall2 (fun r ev => conv r = inl ev) records evs /\ length W = length evs /\
    length outs = length files /\
    (exists s s', open_inputs xml checks inputs = Ok (extract_scaling tags, s) /\
       forall fuel, length records < fuel -> read_all double show xml checks (extract_scaling tags) fuel s = Some (map inl records, s')) /\
    (Forall (writable D (extract_scaling tags)) W -> reads double show xml checks mw names sort (replace_events xml inputs outs) (reweighted_all evs W)).
Proof.
  intros He Hwf Hp. set (scaling := extract_scaling tags) in *. unfold cres_program, open_inputs in Hp. rewrite He in Hp. cbn [bind] in Hp. fold scaling in Hp.
  destruct (cio_new xi checks scaling files) as [s|er|] eqn:En; cbn [bind] in Hp; try discriminate.
  destruct (files_recs scaling files Hwf (new_build scaling files s En)) as [recss Hrecs].
  destruct (read_all double show xml checks scaling fuel s) as [[rds s1]|] eqn:Er; [|discriminate].
  destruct (read_files_unique scaling files recss s fuel _ Hrecs En Er) as [Hrds Hw1]. cbn [fst snd] in Hrds, Hw1. subst rds.
  destruct (run (map inl (concat recss))) as [|e|W] eqn:Erun; [discriminate|destruct e as [[?|]|[?|]|[?|]|[?|]|[?|]|?]; discriminate|].
  destruct (cio_update_all double show xi checks mw names scaling W s1) as [[nw s2]|er|] eqn:Eu; try discriminate. injection Hp as <-.
  pose proof Erun as Hrun. unfold run_on in Hrun. rewrite map_map in Hrun.
  destruct (run_wrote Hshuffle Hsort Hrun) as (HlW & evs0 & _ & _ & _ & (Hlev & Hevs) & _). rewrite map_length in HlW, Hlev.
  assert (Hconv : exists evs, Forall2 (fun r ev => conv r = inl ev) (concat recss) evs).
  { assert (H : forall i r, nth_error (concat recss) i = Some r -> exists ev, conv r = inl ev).
    { intros i r Hi. destruct (nth_error evs0 i) as [e0|] eqn:E0.
      - destruct (Hevs i _ e0 (map_nth_error _ _ _ Hi) E0) as (rec & ev & ev' & E1 & E2 & _). injection E1 as <-. eauto.
      - apply nth_error_None in E0. assert (i < length (concat recss)) by (apply nth_error_Some; congruence). lia. }
    clear -H. induction (concat recss) as [|r l IH]; [exists []; constructor|]. destruct (H 0 r eq_refl) as [ev Hev]. destruct IH as [evs IH]; [intros i; apply (H (S i))|].
    exists (ev :: evs). constructor; assumption. }
  destruct Hconv as [evs Hconv]. pose proof (Forall2_len _ _ _ _ _ Hconv) as Hle.
  exists (concat recss), evs, W. split; [exact Erun|]. split; [exact Hconv|]. split; [congruence|]. split; [|split].
  - pose proof (update_files_wf N double show xi checks mw names scaling files) as Hwf'. unfold cio_update_all in Eu.
    destruct (cio_update_files double show xi checks mw names scaling 0 (length (c_files s1)) W (cio_rewind s1)) as [[rest s3]|er|] eqn:E3; try discriminate. cbn [bind] in Eu. injection Eu as _ <-.
    apply Hwf' in E3; [exact (proj2 E3)|]. destruct Hw1; split; assumption.
  - destruct (read_files scaling files recss s Hrecs En) as (s' & _ & Hall). exists s, s'. split; [|exact Hall]. unfold open_inputs. rewrite He. cbn [bind]. fold scaling. rewrite En. reflexivity.
  - intros HW. destruct (round_files scaling inputs files tags He Hwf recss Hrecs evs W Hconv HlW HW) as (recordss & rs & recss' & H1 & H2 & H3 & H4 & H5).
    pose proof (cio_update N double show xi checks mw names scaling files recordss W s1 H1 Hw1) as Hup. rewrite H2 in Hup. destruct Hup as (s3 & E3 & _ & Ho3).
    rewrite Eu in E3. injection E3 as _ <-. rewrite Ho3.
    destruct (new_ok N xi checks scaling (map fst rs) (files_build scaling _ _ H4)) as (sn & Hsn & _).
    destruct (read_files scaling (map fst rs) recss' sn H4 Hsn) as (s' & _ & Hall).
    exists scaling, sn, (S (length (concat recss'))), (map inl (concat recss')), s'. split; [|split].
    + unfold open_inputs. rewrite H3. cbn [bind]. fold scaling. rewrite Hsn. reflexivity.
    + apply Hall. lia.
    + apply Forall2_map_l. eapply Forall2_weaken; [|exact H5]. intros r ev H. eauto.
Qed.
End Program.
End Main.
