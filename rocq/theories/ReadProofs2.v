(** The readers of the three text formats, and the detection of the format *)
From Verif Require Import Base BaseProofs Num ModelEvent ModelText SpecText TextProofs ModelHepMC ModelLHEF ModelStripper ModelIO ModelMain ModelRead SpecRead ReadProofs.
From Coq Require Import Lia.

Lemma scan_found : forall fuel c m record t r rest, scan fuel c m record t = Found r rest -> exists a, r = a ++ m.
Proof.
  induction fuel as [|fuel IH]; intros c m record t r rest; [discriminate|]. cbn [scan].
  destruct (read_until c t) as [[|a x] q]; [discriminate|]. destruct (ends_with (record ++ a :: x) m) eqn:E.
  - intros H. injection H as <- <-. apply ends_with_true in E. exact E.
  - apply IH.
Qed.

Section Generic.
Context {St : Type} (F : format_reader St).
Hypothesis HM : exists m, f_mark F = m ++ [f_char F].
Hypothesis HH : exists m, f_header_mark F = m ++ [f_char F].
Hypothesis HE : forall st, f_end F st (f_start F) = VEnd.
Hypothesis HF : forall st r, f_found F st r <> VEnd.

Lemma no_end : forall fuel st s t l, delivers s t true -> length t < fuel -> read_rest_s F fuel st s = (l, AllRead) -> False.
Proof.
  induction fuel as [|fuel IH]; intros st s t l Hd Hf; [lia|].
  pose proof (delivers_size _ _ _ Hd) as Hz.
  pose proof (scan_s_spec (f_char F) (f_mark F) HM (S (size s)) (S (length t)) (f_start F) s t true Hd ltac:(lia) ltac:(lia)) as H.
  cbn [read_rest_s]. unfold read_raw_s. destruct (scan (S (length t)) _ _ _ t) as [h q|h].
  - destruct H as (s' & -> & Hd' & Hl). pose proof (HF st h) as Hx. destruct (f_found F st h) as [r st'| | |]; try discriminate; [|congruence].
    destruct (read_rest_s F fuel st' s') as [l' e] eqn:E. intros H. injection H as _ ->. exact (IH _ _ _ _ Hd' ltac:(lia) E).
  - destruct H as (s' & ->). discriminate.
Qed.

Lemma reader_ok s t : delivers s t false ->
  match open_t F t with
  | None => open_s F s = OpenCrashed
  | Some (h, rest) => exists s', open_s F s = Opened h s' /\
      forall st fuel, length rest < fuel -> read_records_s F st s' = rest_t F fuel st rest
  end.
Proof.
  intros Hd. pose proof (open_s_ok F HH s t Hd) as H. destruct (open_t F t) as [[h rest]|]; [|exact H].
  destruct H as (s' & E & Hd'). exists s'. split; [exact E|]. intros st fuel Hf. pose proof (delivers_size _ _ _ Hd').
  apply (rest_s_ok F HM HE); [exact Hd'|lia|exact Hf].
Qed.

Lemma reader_fail s t : delivers s t true ->
  open_s F s = OpenFailed \/
  (open_s F s = OpenCrashed /\ forall more, open_t F (t ++ more) = None) \/
  exists h s', open_s F s = Opened h s' /\
    forall st, exists l e, read_records_s F st s' = (l, e) /\ e <> AllRead /\
    forall more, exists r, open_t F (t ++ more) = Some (h, r) /\ forall fuel, length r < fuel ->
      (e = ReadFailed /\ first_of l (fst (rest_t F fuel st r))) \/ (e = ReadCrashed /\ snd (rest_t F fuel st r) = ReadCrashed).
Proof.
  intros Hd. pose proof (open_s_fail F HH s t Hd) as H. destruct (open_s F s) as [h s'| |]; [|left; reflexivity|right; left; auto].
  destruct H as (rest & Hd' & Ho). right; right. exists h, s'. split; [reflexivity|]. intros st.
  pose proof (delivers_size _ _ _ Hd') as Hz.
  destruct (read_records_s F st s') as [l e] eqn:E. exists l, e. split; [reflexivity|]. unfold read_records_s in E.
  split; [intros ->; exact (no_end (S (S (size s'))) st s' rest _ Hd' ltac:(lia) E)|]. intros more. exists (rest ++ more). split; [apply Ho|].
  intros fuel Hf. destruct (rest_s_fail F HM (S (S (size s'))) st s' rest Hd' ltac:(lia) more fuel Hf) as [(l' & E' & H)|[(l' & E' & H)|(l' & E' & H)]].
  - pose proof (eq_trans (eq_sym E) E') as X. injection X as -> ->. left. auto.
  - pose proof (eq_trans (eq_sym E) E') as X. injection X as -> ->. right. rewrite H. auto.
  - exfalso. exact (no_end (S (S (size s'))) st s' rest _ Hd' ltac:(lia) E').
Qed.
End Generic.

(** *** HepMC *)
Lemma hepmc_M : exists m, f_mark hepmc_format = m ++ [f_char hepmc_format].
Proof. exists [NL]. reflexivity. Qed.
Lemma hepmc_H : exists m, f_header_mark hepmc_format = m ++ [f_char hepmc_format].
Proof. exists [NL]. reflexivity. Qed.
Lemma hepmc_E st : f_end hepmc_format st (f_start hepmc_format) = VEnd.
Proof. reflexivity. Qed.
Lemma hepmc_F st r : f_found hepmc_format st r <> VEnd.
Proof. cbn. destruct (utf8 (removelast r)); discriminate. Qed.
Lemma hepmc_open_t t : open_t hepmc_format t = Some (rd_header (hepmc_open t), rd_source (hepmc_open t)).
Proof. unfold open_t, hepmc_open, hepmc_init. cbn [f_char f_header_mark f_header hepmc_format]. destruct (scan _ _ _ [] t); reflexivity. Qed.
Lemma hepmc_rest_t : forall fuel r, length (rd_source r) < fuel ->
  match hepmc_rest fuel r with
  | Some l => rest_t hepmc_format fuel tt (rd_source r) = (l, AllRead)
  | None => snd (rest_t hepmc_format fuel tt (rd_source r)) = ReadCrashed
  end.
Proof.
  induction fuel as [|fuel IH]; intros r Hf; [lia|]. cbn [hepmc_rest rest_t]. unfold hepmc_next, hepmc_read_raw.
  destruct (rd_source r) as [|a t] eqn:Es; [reflexivity|]. rewrite <- Es in *.
  assert (Hs : forall x y z, raw_t hepmc_format tt (rd_source r) = TRecord x y z -> length z < length (rd_source r)).
  { intros x y z H. apply (raw_shorter hepmc_format hepmc_M _ _ _ _ _ H). rewrite Es. discriminate. }
  unfold raw_t in *. cbn [f_char f_mark f_start f_found f_end hepmc_format] in *.
  destruct (scan _ _ _ _ (rd_source r)) as [h q|h].
  - destruct (utf8 (removelast h)); [|reflexivity]. specialize (Hs _ _ _ eq_refl).
    specialize (IH (mkReader (rd_file r) q (rd_header r)) ltac:(cbn [rd_source]; lia)). cbn [rd_source] in IH.
    destruct (hepmc_rest fuel _); [rewrite IH; reflexivity|]. destruct (rest_t hepmc_format fuel tt q). exact IH.
  - destruct (1 <? length h); [|reflexivity]. destruct (utf8 h); [|reflexivity]. specialize (Hs _ _ _ eq_refl).
    specialize (IH (mkReader (rd_file r) [] (rd_header r)) ltac:(cbn [rd_source]; lia)). cbn [rd_source] in IH.
    destruct (hepmc_rest fuel _); [rewrite IH; reflexivity|]. destruct (rest_t hepmc_format fuel tt []). exact IH.
Qed.

(** *** LHEF *)
Lemma lhef_M : exists m, f_mark lhef_format = m ++ [f_char lhef_format].
Proof. exists (removelast lhef_event_end). reflexivity. Qed.
Lemma lhef_H : exists m, f_header_mark lhef_format = m ++ [f_char lhef_format].
Proof. exists (removelast lhef_init_end). reflexivity. Qed.
Lemma lhef_E st : f_end lhef_format st (f_start lhef_format) = VEnd.
Proof. reflexivity. Qed.
Lemma lhef_F st r : f_found lhef_format st r <> VEnd.
Proof. cbn. destruct (utf8 r); discriminate. Qed.
Lemma lhef_open_t t : open_t lhef_format t = Some (rd_header (lhef_open t), rd_source (lhef_open t)).
Proof. unfold open_t, lhef_open, lhef_init. cbn [f_char f_header_mark f_header lhef_format]. destruct (scan _ _ _ [] t); reflexivity. Qed.
Lemma lhef_rest_t : forall fuel r, length (rd_source r) < fuel ->
  match lhef_rest fuel r with
  | Some l => rest_t lhef_format fuel tt (rd_source r) = (l, AllRead)
  | None => snd (rest_t lhef_format fuel tt (rd_source r)) = ReadCrashed
  end.
Proof.
  induction fuel as [|fuel IH]; intros r Hf; [lia|]. cbn [lhef_rest rest_t]. unfold lhef_next, lhef_read_raw.
  destruct (rd_source r) as [|a t] eqn:Es; [reflexivity|]. rewrite <- Es in *.
  assert (Hs : forall x y z, raw_t lhef_format tt (rd_source r) = TRecord x y z -> length z < length (rd_source r)).
  { intros x y z H. apply (raw_shorter lhef_format lhef_M _ _ _ _ _ H). rewrite Es. discriminate. }
  unfold raw_t in *. cbn [f_char f_mark f_start f_found f_end lhef_format] in *.
  destruct (scan _ _ _ _ (rd_source r)) as [h q|h]; [|reflexivity].
  destruct (utf8 h); [|reflexivity]. specialize (Hs _ _ _ eq_refl).
  specialize (IH (mkReader (rd_file r) q (rd_header r)) ltac:(cbn [rd_source]; lia)). cbn [rd_source] in IH.
  destruct (lhef_rest fuel _); [rewrite IH; reflexivity|]. destruct (rest_t lhef_format fuel tt q). exact IH.
Qed.

(** *** STRIPPER *)
Section Stripper.
Context (checks : bool).
Let F := stripper_format checks.
Lemma stripper_M : exists m, f_mark F = m ++ [f_char F].
Proof. exists (removelast subevent_mark). reflexivity. Qed.
Lemma stripper_H : exists m, f_header_mark F = m ++ [f_char F].
Proof. exists (removelast subevent_mark). reflexivity. Qed.
Lemma stripper_E st : f_end F st (f_start F) = VEnd.
Proof. reflexivity. Qed.
Lemma stripper_F st r : f_found F st r <> VEnd.
Proof. unfold F. cbn [f_found stripper_format]. destruct (utf8 _); [destruct (usize_pred checks st)|]; discriminate. Qed.
Lemma stripper_open_t t : open_t F t = stripper_init checks t.
Proof.
  unfold open_t, stripper_init, F. cbn [f_char f_header_mark f_header stripper_format].
  destruct (scan _ _ _ [] t) as [h rest|h] eqn:E.
  - apply scan_found in E as [a ->]. replace (length (a ++ subevent_mark) <? 3) with false; [reflexivity|].
    symmetry. apply Nat.ltb_ge. rewrite app_length. cbn. lia.
  - destruct (length h <? 3); [destruct checks|]; reflexivity.
Qed.
Lemma stripper_rest_t : forall fuel r, length (sr_source r) < fuel ->
  match stripper_rest checks fuel r with
  | Some (l, _) => rest_t F fuel (sr_rem r) (sr_source r) = (l, AllRead)
  | None => snd (rest_t F fuel (sr_rem r) (sr_source r)) <> AllRead
  end.
Proof.
  induction fuel as [|fuel IH]; intros r Hf; [lia|]. cbn [stripper_rest rest_t]. unfold stripper_read_raw.
  destruct (sr_source r) as [|a t] eqn:Es; [reflexivity|]. rewrite <- Es in *.
  assert (Hs : forall x y z, raw_t F (sr_rem r) (sr_source r) = TRecord x y z -> length z < length (sr_source r)).
  { intros x y z H. apply (raw_shorter F stripper_M _ _ _ _ _ H). rewrite Es. discriminate. }
  unfold raw_t, F in *. cbn [f_char f_mark f_start f_found f_end stripper_format] in *.
  destruct (scan _ _ _ _ (sr_source r)) as [h q|h].
  - destruct (utf8 (firstn (length h - 3) h)); [|discriminate]. destruct (usize_pred checks (sr_rem r)) as [n|]; [|discriminate].
    specialize (Hs _ _ _ eq_refl).
    specialize (IH (mkSReader (sr_file r) q n (sr_header r)) ltac:(cbn [sr_source]; lia)). cbn [sr_source sr_rem] in IH.
    destruct (stripper_rest checks fuel _) as [[l e]|]; [rewrite IH; reflexivity|]. destruct (rest_t _ fuel n q). exact IH.
  - destruct (3 <? length h); [|reflexivity]. destruct (utf8 h); [|discriminate]. destruct (usize_pred checks (sr_rem r)) as [n|]; [|discriminate].
    specialize (Hs _ _ _ eq_refl).
    specialize (IH (mkSReader (sr_file r) [] n (sr_header r)) ltac:(cbn [sr_source]; lia)). cbn [sr_source sr_rem] in IH.
    destruct (stripper_rest checks fuel _) as [[l e]|]; [rewrite IH; reflexivity|]. destruct (rest_t _ fuel n []). exact IH.
Qed.
End Stripper.

(** *** detection *)
Lemma strip_more : forall p b t, length p <= length b -> starts_with p (b ++ t) = starts_with p b.
Proof.
  unfold starts_with. induction p as [|a p IH]; intros b t H; [reflexivity|]. destruct b as [|x b]; [cbn in H; lia|].
  cbn [app strip_prefix]. destruct (ceq a x); [|reflexivity]. apply IH. cbn in H. lia.
Qed.
Lemma span_more (p : ascii -> bool) : forall b t, snd (span p b) <> [] -> snd (span p (b ++ t)) = snd (span p b) ++ t.
Proof.
  induction b as [|a b IH]; intros t H; [exfalso; apply H; reflexivity|]. cbn [app span] in *. destruct (p a); [|reflexivity].
  specialize (IH t). destruct (span p b), (span p (b ++ t)). cbn [snd] in *. apply IH. exact H.
Qed.
Lemma span_short (p : ascii -> bool) : forall b, length (snd (span p b)) <= length b.
Proof. induction b as [|a b IH]; [reflexivity|]. cbn [span]. destruct (p a); [|reflexivity]. destruct (span p b). cbn [snd length] in *. lia. Qed.
Lemma detect_more b t : 17 <= length (trim_ascii_start b) -> detect_event_file_format (b ++ t) = detect_event_file_format b.
Proof.
  intros H. unfold trim_ascii_start in *. pose proof (span_short is_ascii_ws b) as Hb. unfold detect_event_file_format, trim_ascii_start.
  rewrite (strip_more (lit "root")) by (cbn; lia). rewrite (strip_more (lit "<LesHouchesEvents")) by (cbn; lia).
  rewrite span_more by (destruct (snd (span is_ascii_ws b)); [cbn in H; lia|discriminate]).
  rewrite (strip_more (lit "<?xml")) by (cbn [length lit]; cbn; lia). reflexivity.
Qed.
Lemma delivers_all s t : delivers s t false -> before_failure s = (t, false).
Proof.
  intros H. remember false as f eqn:Ef. induction H as [|s|b s t f Hb Hd IH]; [reflexivity|discriminate|].
  cbn [before_failure]. rewrite (IH Ef). reflexivity.
Qed.
Lemma xml_more b t : 5 <= length (trim_ascii_start b) -> is_xml (b ++ t) = is_xml b.
Proof.
  unfold is_xml, trim_ascii_start. intros H. rewrite span_more by (destruct (snd (span is_ascii_ws b)); [cbn in H; lia|discriminate]).
  apply (strip_more (lit "<?xml")). cbn [length lit]. cbn. lia.
Qed.

Lemma scan_atend_marker : forall fuel c m record t r, (exists k, m = k ++ [c]) -> length t < fuel -> scan fuel c m record t = AtEnd r -> r = record ++ t.
Proof.
  induction fuel as [|fuel IH]; intros c m record t r Hm Hf; [lia|]. cbn [scan]. destruct (in_dec ascii_dec c t) as [Hc|Hc].
  - destruct (until_found c t Hc) as (x & q & E & Et & _). rewrite E. destruct (x ++ [c]) as [|a y] eqn:Ex; [destruct x; discriminate|].
    destruct (ends_with (record ++ a :: y) m); [discriminate|]. intros H. apply IH in H; [|exact Hm|rewrite Et in Hf; rewrite app_length in Hf; cbn in Hf; lia].
    rewrite H, Et, app_assoc. reflexivity.
  - rewrite (until_missing c t Hc). destruct t as [|a t]; [intros H; injection H as <-; rewrite app_nil_r; reflexivity|].
    rewrite (not_marker c m Hm) by (try discriminate; exact Hc). intros H. destruct fuel as [|fuel]; [cbn in Hf; lia|].
    cbn in H. injection H as <-. reflexivity.
Qed.
Lemma stripper_atend t h : scan (S (length t)) "e" subevent_mark [] t = AtEnd h -> h = t.
Proof. intros H. apply scan_atend_marker in H; [exact H|exists (removelast subevent_mark); reflexivity|lia]. Qed.
