(** A run that reads files in pieces does what the run on their contents does, or ends with an error. *)
From Verif Require Import Base BaseProofs Num ModelEvent ModelText SpecText TextProofs ModelHepMC ModelLHEF ModelStripper ModelIO ModelResampler ModelUnweight
  ModelCres ModelMain ModelRead SpecRead ReadProofs ReadProofs2 ModelReadRun SpecReadRun.
From Coq Require Import Lia.

(** [exact]: no read fails *)
Definition covers (exact : bool) (s : source) (t : text) : Prop :=
  exists t0 b more, delivers s t0 b /\ t = t0 ++ more /\ (b = false -> more = []) /\ (exact = true -> b = false).
Lemma covers_nil exact : covers exact [] [].
Proof. exists [], false, []. repeat split. apply delivers_end. Qed.

Section Generic.
Context {St : Type} (F : format_reader St).
Hypothesis HM : exists m, f_mark F = m ++ [f_char F].
Hypothesis HH : exists m, f_header_mark F = m ++ [f_char F].
Lemma raw_step exact st s t : covers exact s t ->
  match read_raw_s F st s with
  | NRecord r st' s' => exists rest, raw_t F st t = TRecord r st' rest /\ covers exact s' rest
  | NEnd => raw_t F st t = TEnd
  | NPanic => raw_t F st t = TPanic
  | NError => raw_t F st t = TError \/ exact = false
  end.
Proof.
  intros (t0 & b & more & Hd & -> & Hb & Hx). pose proof (delivers_size _ _ _ Hd) as Hz.
  pose proof (scan_s_spec (f_char F) (f_mark F) HM (S (size s)) (S (length t0)) (f_start F) s t0 b Hd ltac:(lia) ltac:(lia)) as H.
  unfold read_raw_s. destruct (scan (S (length t0)) _ _ _ t0) as [h q|h] eqn:E.
  - destruct H as (s' & -> & Hd' & _).
    assert (M : scan (S (length (t0 ++ more))) (f_char F) (f_mark F) (f_start F) (t0 ++ more) = Found h (q ++ more)).
    { eapply scan_more; [exact HM|exact E|rewrite app_length; lia]. }
    unfold raw_t. rewrite M. destruct (f_found F st h) as [r st'| | |]; try reflexivity; [|left; reflexivity].
    exists (q ++ more). split; [reflexivity|]. exists q, b, more. auto.
  - destruct H as (s' & ->). destruct b.
    + right. destruct exact; [discriminate (Hx eq_refl)|reflexivity].
    + rewrite (Hb eq_refl), app_nil_r. unfold raw_t. rewrite E. destruct (f_end F st h) as [r st'| | |]; try reflexivity; [|left; reflexivity].
      exists []. split; [reflexivity|apply covers_nil].
Qed.
Lemma open_step exact s t : covers exact s t ->
  match open_s F s with
  | Opened h s' => exists rest, open_t F t = Some (h, rest) /\ covers exact s' rest
  | OpenFailed => exact = false
  | OpenCrashed => open_t F t = None
  end.
Proof.
  intros (t0 & b & more & Hd & -> & Hb & Hx). destruct b.
  - pose proof (open_s_fail F HH s t0 Hd) as H. destruct (open_s F s) as [h s'| |].
    + destruct H as (rest & Hd' & Ho). exists (rest ++ more). split; [apply Ho|]. exists rest, true, more. auto.
    + destruct exact; [discriminate (Hx eq_refl)|reflexivity].
    + apply H.
  - rewrite (Hb eq_refl), app_nil_r. pose proof (open_s_ok F HH s t0 Hd) as H. destruct (open_t F t0) as [[h rest]|].
    + destruct H as (s' & -> & Hd'). exists rest. split; [reflexivity|]. exists rest, false, []. rewrite app_nil_r. auto.
    + rewrite H. reflexivity.
Qed.
End Generic.

Lemma detect_first exact s file : covers exact s file -> first_read_suffices 17 s file -> detect_s s = detect_event_file_format file.
Proof.
  intros (t0 & b & more & Hd & -> & Hb & _) H. destruct Hd as [|s|c s t f Hc Hd]; cbn [first_read_suffices detect_s] in *.
  - rewrite (Hb eq_refl). reflexivity.
  - destruct H.
  - destruct H as [H|H]; [rewrite <- app_assoc; symmetry; apply detect_more; exact H|rewrite <- H; reflexivity].
Qed.

Section Sim.
Context (N : NumOps) (double : parser N) (show : N -> text) (xml : text -> option (xml_tag N)).
Context (checks mw : bool) (names : list text) (scaling : list (text * N)) (reads : nat -> text -> source) (exact : bool).

Definition rel_f (x : sfio N) (y : fio N) : Prop :=
  match x, y with
  | SHepMC h s, IOHepMC r => rd_header r = h /\ covers exact s (rd_source r)
  | SLhef h s, IOLhef r => rd_header r = h /\ covers exact s (rd_source r)
  | SStripper h s n c, IOStripper r c' => sr_header r = h /\ sr_rem r = n /\ c' = c /\ covers exact s (sr_source r)
  | _, _ => False
  end.
Definition sim {A B} (R : A -> B -> Prop) (x : res A) (y : res B) : Prop :=
  match x with
  | Ok a => exists b, y = Ok b /\ R a b
  | Err e => y = Err e \/ exact = false
  | Panic => y = Panic
  end.
Definition sim_step {A B} (R : A -> B -> Prop) (x : step A) (y : step B) : Prop :=
  match x with
  | Finished a => exists b, y = Finished b /\ R a b
  | Item r a => exists b, y = Item r b /\ R a b
  | ModelIO.Failed e a => (exists b, y = ModelIO.Failed e b) \/ exact = false
  | ModelIO.Panicked => y = ModelIO.Panicked
  end.
Lemma sim_bind {A B A' B'} (R : A -> B -> Prop) (R' : A' -> B' -> Prop) x y f g :
  sim R x y -> (forall a b, R a b -> sim R' (f a) (g b)) -> sim R' (bind x f) (bind y g).
Proof.
  intros H Hf. destruct x as [a|e|]; cbn [sim bind] in *.
  - destruct H as (b & -> & H). apply Hf. exact H.
  - destruct H as [->|H]; [left; reflexivity|right; exact H].
  - rewrite H. reflexivity.
Qed.

Definition good (file : text) : Prop := forall k, covers exact (reads k file) file /\ first_read_suffices 17 (reads k file) file.

Lemma build_sim k file : good file -> sim rel_f (build_s xml checks scaling reads k file) (build_from_files (header_info xml) checks scaling file).
Proof.
  intros G. unfold build_s, build_from_files. rewrite (detect_first exact _ _ (proj1 (G k)) (proj2 (G k))).
  pose proof (proj1 (G (S k))) as C. destruct (detect_event_file_format file).
  - pose proof (open_step hepmc_format hepmc_H exact _ _ C) as H. destruct (open_s hepmc_format (reads (S k) file)) as [h s'| |]; rewrite ?hepmc_open_t in H.
    + destruct H as (rest & E & H). injection E as E1 E2. eexists. split; [reflexivity|]. split; [exact E1|]. rewrite E2. exact H.
    + right. exact H.
    + discriminate.
  - pose proof (open_step lhef_format lhef_H exact _ _ C) as H. destruct (open_s lhef_format (reads (S k) file)) as [h s'| |]; rewrite ?lhef_open_t in H.
    + destruct H as (rest & E & H). injection E as E1 E2. eexists. split; [reflexivity|]. split; [exact E1|]. rewrite E2. exact H.
    + right. exact H.
    + discriminate.
  - left. reflexivity.
  - pose proof (open_step (stripper_format checks) (stripper_H checks) exact _ _ C) as H.
    destruct (open_s (stripper_format checks) (reads (S k) file)) as [h s'| |]; rewrite ?stripper_open_t in H.
    + destruct H as (rest & -> & H). destruct (header_info xml h) as [[name n]|]; [|left; reflexivity].
      destruct (lookup_scale scaling name) as [c|]; [|left; reflexivity].
      eexists. split; [reflexivity|]. cbn. auto.
    + right. exact H.
    + rewrite H. reflexivity.
Qed.

Lemma hepmc_raw t : hepmc_read_raw t = match raw_t hepmc_format tt t with TRecord r _ rest => RawRecord r rest | TEnd => RawEnd | _ => RawPanic end.
Proof.
  unfold hepmc_read_raw, raw_t. cbn [f_char f_mark f_start f_found f_end hepmc_format]. destruct (scan _ _ _ _ t) as [h q|h].
  - destruct (utf8 (removelast h)); reflexivity.
  - destruct (1 <? length h); [|reflexivity]. destruct (utf8 h); reflexivity.
Qed.
Lemma lhef_raw t : lhef_read_raw t = match raw_t lhef_format tt t with TRecord r _ rest => RawRecord r rest | TEnd => RawEnd | _ => RawPanic end.
Proof.
  unfold lhef_read_raw, raw_t. cbn [f_char f_mark f_start f_found f_end lhef_format]. destruct (scan _ _ _ _ t) as [h q|h]; [|reflexivity].
  destruct (utf8 h); reflexivity.
Qed.
Lemma hepmc_no_error st t : raw_t hepmc_format st t <> TError.
Proof.
  unfold raw_t. cbn [f_char f_mark f_start f_found f_end hepmc_format]. destruct (scan _ _ _ _ t) as [h q|h].
  - destruct (utf8 (removelast h)); discriminate.
  - destruct (1 <? length h); [|discriminate]. destruct (utf8 h); discriminate.
Qed.
Lemma lhef_no_error st t : raw_t lhef_format st t <> TError.
Proof.
  unfold raw_t. cbn [f_char f_mark f_start f_found f_end lhef_format]. destruct (scan _ _ _ _ t) as [h q|h]; [|discriminate].
  destruct (utf8 h); discriminate.
Qed.
Lemma stripper_raw r :
  match raw_t (stripper_format checks) (sr_rem r) (sr_source r) with
  | TRecord record n rest => stripper_read_raw checks r = SRecord record (mkSReader (sr_file r) rest n (sr_header r))
  | TEnd => stripper_read_raw checks r = SEnd
  | TError => exists r', stripper_read_raw checks r = SUtf8Error r'
  | TPanic => stripper_read_raw checks r = SPanic
  end.
Proof.
  unfold stripper_read_raw, raw_t. cbn [f_char f_mark f_start f_found f_end stripper_format]. destruct (scan _ _ _ _ (sr_source r)) as [h q|h].
  - destruct (utf8 (firstn (length h - 3) h)); [destruct (usize_pred checks (sr_rem r)); reflexivity|eexists; reflexivity].
  - destruct (3 <? length h); [|reflexivity]. destruct (utf8 h); [destruct (usize_pred checks (sr_rem r)); reflexivity|eexists; reflexivity].
Qed.

Lemma next_sim x y : rel_f x y -> sim_step rel_f (sfio_next double show checks x) (fio_next double show checks y).
Proof.
  destruct x as [h s|h s|h s n c], y as [r|r|r c']; cbn [rel_f]; intros R; try contradiction; cbn [sfio_next fio_next].
  - destruct R as [<- C]. pose proof (raw_step hepmc_format hepmc_M exact tt _ _ C) as H. unfold hepmc_next. rewrite hepmc_raw.
    destruct (read_raw_s hepmc_format tt s) as [t [] s'| | |].
    + destruct H as (rest & -> & C'). eexists. split; [reflexivity|]. split; [reflexivity|exact C'].
    + rewrite H. eexists. split; [reflexivity|]. split; [reflexivity|apply covers_nil].
    + destruct H as [H|H]; [destruct (hepmc_no_error _ _ H)|right; exact H].
    + rewrite H. reflexivity.
  - destruct R as [<- C]. pose proof (raw_step lhef_format lhef_M exact tt _ _ C) as H. unfold lhef_next. rewrite lhef_raw.
    destruct (read_raw_s lhef_format tt s) as [t [] s'| | |].
    + destruct H as (rest & -> & C'). eexists. split; [reflexivity|]. split; [reflexivity|exact C'].
    + rewrite H. eexists. split; [reflexivity|]. split; [reflexivity|apply covers_nil].
    + destruct H as [H|H]; [destruct (lhef_no_error _ _ H)|right; exact H].
    + rewrite H. reflexivity.
  - destruct R as (<- & <- & -> & C). pose proof (raw_step (stripper_format checks) (stripper_M checks) exact (sr_rem r) _ _ C) as H.
    pose proof (stripper_raw r) as Q. destruct (read_raw_s (stripper_format checks) (sr_rem r) s) as [t n s'| | |].
    + destruct H as (rest & E & C'). rewrite E in Q. rewrite Q. destruct (rescale_weight double show c t).
      * eexists. split; [reflexivity|]. cbn. auto.
      * left. eexists. reflexivity.
      * reflexivity.
    + rewrite H in Q. rewrite Q. eexists. split; [reflexivity|]. cbn. split; [reflexivity|]. split; [reflexivity|]. split; [reflexivity|apply covers_nil].
    + destruct H as [H|H]; [|right; exact H]. rewrite H in Q. destruct Q as [r' ->]. left. eexists. reflexivity.
    + rewrite H in Q. rewrite Q. reflexivity.
Qed.

Definition rel_u (x : option text * sfio N) (y : option text * fio N) : Prop := fst x = fst y /\ rel_f (snd x) (snd y).
Lemma update_sim w x y : rel_f x y -> sim rel_u (sfio_update double show checks mw names w x) (fio_update double show checks mw names w y).
Proof.
  destruct x as [h s|h s|h s n c], y as [r|r|r c']; cbn [rel_f]; intros R; try contradiction; cbn [sfio_update fio_update].
  - destruct R as [<- C]. pose proof (raw_step hepmc_format hepmc_M exact tt _ _ C) as H. unfold hepmc_next. rewrite hepmc_raw.
    destruct (read_raw_s hepmc_format tt s) as [t [] s'| | |].
    + destruct H as (rest & -> & C'). destruct (hepmc_update show mw names w t); cbn [bind sim]; [|left; reflexivity|reflexivity].
      eexists. split; [reflexivity|]. split; [reflexivity|]. split; [reflexivity|exact C'].
    + rewrite H. eexists. split; [reflexivity|]. split; [reflexivity|]. split; [reflexivity|apply covers_nil].
    + destruct H as [H|H]; [destruct (hepmc_no_error _ _ H)|right; exact H].
    + rewrite H. reflexivity.
  - destruct R as [<- C]. pose proof (raw_step lhef_format lhef_M exact tt _ _ C) as H. unfold lhef_next. rewrite lhef_raw.
    destruct (read_raw_s lhef_format tt s) as [t [] s'| | |].
    + destruct H as (rest & -> & C'). destruct (lhef_update show mw w t); cbn [bind sim]; [|left; reflexivity|reflexivity].
      eexists. split; [reflexivity|]. split; [reflexivity|]. split; [reflexivity|exact C'].
    + rewrite H. eexists. split; [reflexivity|]. split; [reflexivity|]. split; [reflexivity|apply covers_nil].
    + destruct H as [H|H]; [destruct (lhef_no_error _ _ H)|right; exact H].
    + rewrite H. reflexivity.
  - destruct R as (<- & <- & -> & C). pose proof (raw_step (stripper_format checks) (stripper_M checks) exact (sr_rem r) _ _ C) as H.
    pose proof (stripper_raw r) as Q. destruct (read_raw_s (stripper_format checks) (sr_rem r) s) as [t n s'| | |].
    + destruct H as (rest & E & C'). rewrite E in Q. rewrite Q. destruct (stripper_update double show mw c w t); cbn [bind sim]; [|left; reflexivity|reflexivity].
      eexists. split; [reflexivity|]. split; [reflexivity|]. cbn. auto.
    + rewrite H in Q. rewrite Q. eexists. split; [reflexivity|]. split; [reflexivity|]. cbn. split; [reflexivity|]. split; [reflexivity|]. split; [reflexivity|apply covers_nil].
    + destruct H as [H|H]; [|right; exact H]. rewrite H in Q. destruct Q as [r' ->]. left. reflexivity.
    + rewrite H in Q. rewrite Q. reflexivity.
Qed.
Lemma rel_header x y : rel_f x y -> sfio_header x = fio_header y.
Proof. destruct x, y; cbn; try contradiction; intros H; symmetry; apply H. Qed.
Lemma rel_finish x y : rel_f x y -> sfio_finish x = fio_finish y.
Proof. destruct x, y; cbn; try contradiction; reflexivity. Qed.
Lemma rel_hint x y : rel_f x y -> sfio_size_hint x = fio_size_hint y.
Proof. destruct x, y; cbn; try contradiction; try reflexivity. intros (_ & -> & _). reflexivity. Qed.
Lemma rel_record x y t : rel_f x y -> record_of_s x t = record_of y t.
Proof. destruct x, y; cbn; try contradiction; reflexivity. Qed.

(** *** all files *)
Definition rel_o (x : option (sfio N)) (y : option (fio N)) : Prop :=
  match x, y with Some x, Some y => rel_f x y | None, None => True | _, _ => False end.
Definition rel_c (x : scio N) (y : cio N) : Prop :=
  x_files x = c_files y /\ rel_o (x_current x) (c_current y) /\ x_idx x = c_idx y /\ x_nread x = c_nread y /\
  x_hint x = c_hint y /\ x_outs x = c_outs y /\ Forall good (c_files y).

Lemma open_sim idx x y : rel_c x y -> sim rel_c (scio_open xml checks scaling reads idx x) (cio_open (header_info xml) checks scaling idx y).
Proof.
  intros (E1 & _ & E3 & E4 & E5 & E6 & G). unfold scio_open, cio_open. rewrite E1.
  destruct (nth_error (c_files y) idx) as [file|] eqn:En; [|reflexivity]. apply nth_error_In in En.
  eapply sim_bind; [apply build_sim; exact (proj1 (Forall_forall _ _) G _ En)|]. intros a b R. rewrite (rel_header _ _ R), E6.
  destruct (set_nth idx (fio_header b) (c_outs y)); [|reflexivity]. eexists. split; [reflexivity|].
  unfold rel_c. cbn [x_files x_current x_idx x_nread x_hint x_outs c_files c_current c_idx c_nread c_hint c_outs]. repeat split; auto.
Qed.

Lemma rel_current x y : rel_c x y -> rel_o (x_current x) (c_current y).
Proof. intros H. apply H. Qed.
Lemma rel_write x y t a b : rel_c x y -> rel_f a b -> rel_c (scio_write t a x) (cio_write t b y).
Proof.
  intros (E1 & _ & E3 & E4 & E5 & E6 & G) R. unfold rel_c, scio_write, cio_write.
  cbn [x_files x_current x_idx x_nread x_hint x_outs c_files c_current c_idx c_nread c_hint c_outs]. rewrite E3, E6. repeat split; auto.
Qed.

Lemma init_loop_sim : forall n idx x y, rel_c x y ->
  sim rel_c (scio_init_loop xml checks scaling reads idx n x) (cio_init_loop (header_info xml) checks scaling idx n y).
Proof.
  induction n as [|n IH]; intros idx x y R; [eexists; split; [reflexivity|exact R]|]. cbn [scio_init_loop cio_init_loop].
  eapply sim_bind; [apply open_sim; exact R|]. intros a b R'. pose proof (rel_current _ _ R') as O.
  destruct (x_current a) as [f|] eqn:Ea, (c_current b) as [g|] eqn:Eb; cbn [rel_o] in O; try contradiction; [|reflexivity].
  apply IH. destruct R' as (E1 & E2 & E3 & E4 & E5 & E6 & G). unfold rel_c.
  cbn [x_files x_current x_idx x_nread x_hint x_outs c_files c_current c_idx c_nread c_hint c_outs]. rewrite E5, (rel_hint _ _ O). repeat split; auto.
Qed.
Lemma new_sim files : Forall good files -> sim rel_c (scio_new xml checks scaling reads files) (cio_new (header_info xml) checks scaling files).
Proof.
  intros G. unfold scio_new, cio_new, scio_init, cio_init. cbn [x_files c_files].
  assert (R : rel_c (mkSCIO files None 0 0 (0%N, Some 0%N) (repeat [] (length files)) 0) (mkCIO files None 0 0 (0%N, Some 0%N) (repeat [] (length files)))).
  { unfold rel_c. cbn. repeat split; auto. }
  destruct (length files =? 0); [eexists; split; [reflexivity|exact R]|].
  eapply sim_bind; [apply init_loop_sim; exact R|]. intros a b R'. apply open_sim. exact R'.
Qed.

Lemma cnext_sim : forall fuel x y, rel_c x y ->
  sim_step rel_c (scio_next double show xml checks scaling reads fuel x) (cio_next double show (header_info xml) checks scaling fuel y).
Proof.
  induction fuel as [|fuel IH]; intros x y R; pose proof (rel_current _ _ R) as O; pose proof R as (E1 & E2 & E3 & E4 & E5 & E6 & G);
    cbn [scio_next cio_next]; (destruct (x_current x) as [f|] eqn:Ea, (c_current y) as [g|] eqn:Eb; cbn [rel_o] in O; try contradiction; rewrite ?E1, ?E3, ?E4, ?E5, ?E6).
  - pose proof (next_sim _ _ O) as H. destruct (sfio_next double show checks f) as [f'|t f'|e f'|]; cbn [sim_step] in H.
    + destruct H as (g' & -> & R'). destruct (c_idx y + 1 =? length (c_files y)); [|reflexivity].
      eexists. split; [reflexivity|]. unfold rel_c. cbn. repeat split; auto.
    + destruct H as (g' & -> & R'). eexists. split; [reflexivity|]. unfold rel_c. cbn. repeat split; auto.
    + destruct H as [(g' & ->)|H]; [left; eexists; reflexivity|right; exact H].
    + rewrite H. reflexivity.
  - destruct (length (c_files y) =? 0); [eexists; split; [reflexivity|exact R]|reflexivity].
  - assert (OP : forall idx, sim_step rel_c
      match scio_open xml checks scaling reads idx x with
      | Ok s => scio_next double show xml checks scaling reads fuel s | Err e => ModelIO.Failed e x | Panic => ModelIO.Panicked end
      match cio_open (header_info xml) checks scaling idx y with
      | Ok s => cio_next double show (header_info xml) checks scaling fuel s | Err e => ModelIO.Failed e y | Panic => ModelIO.Panicked end).
    { intros idx. pose proof (open_sim idx x y R) as H. destruct (scio_open xml checks scaling reads idx x) as [a|e|]; cbn [sim] in H.
      - destruct H as (b & -> & R'). apply IH. exact R'.
      - destruct H as [->|H]; [left; eexists; reflexivity|right; exact H].
      - rewrite H. reflexivity. }
    pose proof (next_sim _ _ O) as H. destruct (sfio_next double show checks f) as [f'|t f'|e f'|]; cbn [sim_step] in H.
    + destruct H as (g' & -> & R'). destruct (c_idx y + 1 =? length (c_files y)); [|apply OP].
      eexists. split; [reflexivity|]. unfold rel_c. cbn. repeat split; auto.
    + destruct H as (g' & -> & R'). eexists. split; [reflexivity|]. unfold rel_c. cbn. repeat split; auto.
    + destruct H as [(g' & ->)|H]; [left; eexists; reflexivity|right; exact H].
    + rewrite H. reflexivity.
  - destruct (length (c_files y) =? 0); [eexists; split; [reflexivity|exact R]|].
    pose proof (open_sim 0 x y R) as H. destruct (scio_open xml checks scaling reads 0 x) as [a|e|]; cbn [sim] in H.
    + destruct H as (b & -> & R'). apply IH. exact R'.
    + destruct H as [->|H]; [left; eexists; reflexivity|right; exact H].
    + rewrite H. reflexivity.
Qed.

Lemma update_file_sim : forall ws x y, rel_c x y ->
  sim (fun a b => fst a = fst b /\ rel_c (snd a) (snd b)) (scio_update_file double show checks mw names ws x) (cio_update_file double show checks mw names ws y).
Proof.
  induction ws as [|w ws IH]; intros x y R; [eexists; split; [reflexivity|]; split; [reflexivity|exact R]|].
  cbn [scio_update_file cio_update_file]. pose proof (rel_current _ _ R) as O.
  destruct (x_current x) as [f|], (c_current y) as [g|]; cbn [rel_o] in O; try contradiction; [|reflexivity].
  eapply sim_bind; [apply update_sim; exact O|]. intros [o f'] [o' g'] [Eo R']. cbn [fst snd] in *. subst o'. destruct o as [t|].
  - apply IH. apply rel_write; assumption.
  - eexists. split; [reflexivity|]. split; [reflexivity|]. apply rel_write; assumption.
Qed.
Lemma update_files_sim : forall n idx ws x y, rel_c x y ->
  sim (fun a b => fst a = fst b /\ rel_c (snd a) (snd b)) (scio_update_files double show xml checks mw names scaling reads idx n ws x)
    (cio_update_files double show (header_info xml) checks mw names scaling idx n ws y).
Proof.
  induction n as [|n IH]; intros idx ws x y R; [eexists; split; [reflexivity|]; split; [reflexivity|exact R]|].
  cbn [scio_update_files cio_update_files]. eapply sim_bind; [apply open_sim; exact R|]. intros a b R1.
  eapply sim_bind; [apply update_file_sim; exact R1|]. intros [ws' a'] [ws'' b'] [Ew R2]. cbn [fst snd] in *. subst ws''.
  pose proof (rel_current _ _ R2) as O. destruct (x_current a') as [f|], (c_current b') as [g|]; cbn [rel_o] in O; try contradiction; [|reflexivity].
  rewrite (rel_finish _ _ O). apply IH. apply rel_write; assumption.
Qed.
Lemma update_all_sim ws x y : rel_c x y ->
  sim (fun a b => fst a = fst b /\ rel_c (snd a) (snd b)) (scio_update_all double show xml checks mw names scaling reads ws x)
    (cio_update_all double show (header_info xml) checks mw names scaling ws y).
Proof.
  intros R. unfold scio_update_all, cio_update_all. replace (x_files x) with (c_files y) by (symmetry; apply R).
  eapply sim_bind.
  - apply update_files_sim. destruct R as (E1 & E2 & E3 & E4 & E5 & E6 & G). unfold rel_c, scio_rewind, cio_rewind.
    cbn [x_files x_current x_idx x_nread x_hint x_outs c_files c_current c_idx c_nread c_hint c_outs]. repeat split; auto.
  - intros [ws' a] [ws'' b] [E R']. cbn [fst snd] in *. subst ws''. eexists. split; [reflexivity|]. split; [reflexivity|exact R'].
Qed.

Definition fails (l : list (event_record + read_error)) : Prop := exists p e, l = p ++ [inr e].
Lemma read_all_sim : forall fuel x y, rel_c x y ->
  match read_all_s double show xml checks scaling reads fuel x with
  | None => read_all double show xml checks scaling fuel y = None
  | Some (l, x') => (fails l /\ exact = false) \/
      exists y', read_all double show xml checks scaling fuel y = Some (l, y') /\ (rel_c x' y' \/ fails l)
  end.
Proof.
  induction fuel as [|fuel IH]; intros x y R; [reflexivity|]. cbn [read_all_s read_all].
  assert (EF : scio_fuel x = cio_fuel y) by (unfold scio_fuel, cio_fuel; destruct R as (-> & _); reflexivity). rewrite EF.
  pose proof (cnext_sim (cio_fuel y) x y R) as H.
  destruct (scio_next double show xml checks scaling reads (cio_fuel y) x) as [a|t a|e a|]; cbn [sim_step] in H.
  - destruct H as (b & -> & R'). right. exists b. auto.
  - destruct H as (b & -> & R'). pose proof (rel_current _ _ R') as O. specialize (IH a b R').
    destruct (x_current a) as [f|], (c_current b) as [g|]; cbn [rel_o] in O; try contradiction; [|reflexivity].
    destruct (read_all_s double show xml checks scaling reads fuel a) as [[l x']|].
    + rewrite (rel_record _ _ t O). destruct IH as [[(p & e & ->) Hx]|(y' & -> & IH)].
      * left. split; [|exact Hx]. exists (inl (record_of g t) :: p), e. reflexivity.
      * right. exists y'. split; [reflexivity|]. destruct IH as [IH|(p & e & ->)]; [left; exact IH|right].
        exists (inl (record_of g t) :: p), e. reflexivity.
    + rewrite IH. reflexivity.
  - assert (Fa : fails [inr e]) by (exists [], e; reflexivity).
    destruct H as [(b & ->)|H]; [right; exists b; auto|left; auto].
  - rewrite H. reflexivity.
Qed.
End Sim.
