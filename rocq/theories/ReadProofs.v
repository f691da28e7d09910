(** Reading piece by piece is reading the contents, up to the first error. *)
From Verif Require Import Base BaseProofs Num ModelEvent ModelText SpecText TextProofs ModelHepMC ModelLHEF ModelStripper ModelIO ModelMain ModelRead SpecRead.
From Coq Require Import Lia.

Lemma has_true c t : has c t = true <-> In c t.
Proof.
  unfold has. rewrite existsb_exists. split.
  - intros (x & Hx & E). apply ceq_true in E. subst. exact Hx.
  - intros H. exists c. split; [exact H|apply ceq_refl].
Qed.
Lemma has_false c t : has c t = false <-> ~ In c t.
Proof. rewrite <- has_true. destruct (has c t); split; congruence. Qed.

Lemma until_found c : forall t, In c t -> exists x r, read_until c t = (x ++ [c], r) /\ t = (x ++ [c]) ++ r /\ ~ In c x.
Proof.
  induction t as [|a t IH]; [intros []|]. cbn [read_until]. destruct (ceq a c) eqn:E.
  - apply ceq_true in E as ->. intros _. exists [], t. split; [reflexivity|]. split; [reflexivity|intros []].
  - apply ceq_false in E. intros [->|H]; [congruence|]. destruct (IH H) as (x & r & E1 & E2 & E3). rewrite E1.
    exists (a :: x), r. split; [reflexivity|]. split; [rewrite E2 at 1; reflexivity|]. intros [->|Hx]; [congruence|contradiction].
Qed.
Lemma until_missing c : forall t, ~ In c t -> read_until c t = (t, []).
Proof.
  induction t as [|a t IH]; intros H; [reflexivity|]. cbn [read_until].
  destruct (ceq a c) eqn:E; [apply ceq_true in E; subst; exfalso; apply H; left; reflexivity|].
  rewrite IH by (intros Hx; apply H; right; exact Hx). reflexivity.
Qed.
Lemma until_more c t x r more : In c t -> read_until c t = (x, r) -> read_until c (t ++ more) = (x, r ++ more).
Proof.
  revert x r. induction t as [|a t IH]; intros x r; [intros []|]. cbn [app read_until]. destruct (ceq a c) eqn:E.
  - intros _ H. injection H as <- <-. reflexivity.
  - apply ceq_false in E. intros [->|H]; [congruence|]. destruct (read_until c t) as [y q] eqn:Eq. intros Hx. injection Hx as <- <-.
    rewrite (IH _ _ H eq_refl). reflexivity.
Qed.

(** *** one call *)
Lemma until_s_missing c : forall s t f, delivers s t f -> ~ In c t ->
  exists s', read_until_s c s = (t, f, s') /\ (f = false -> s' = []).
Proof.
  induction 1 as [|s|b s t f Hb Hd IH]; intros Hc.
  - exists []. auto.
  - exists s. split; [reflexivity|discriminate].
  - assert (H1 : ~ In c b) by (intros H; apply Hc; apply in_or_app; auto).
    assert (H2 : ~ In c t) by (intros H; apply Hc; apply in_or_app; auto).
    destruct (IH H2) as (s' & E & Hs'). exists s'. split; [|exact Hs'].
    cbn [read_until_s]. destruct b as [|a b]; [congruence|]. rewrite (until_missing c (a :: b) H1), E.
    rewrite (proj2 (has_false c (a :: b)) H1). reflexivity.
Qed.
Lemma until_s_found c : forall s t f, delivers s t f -> In c t ->
  exists x r s', read_until c t = (x, r) /\ read_until_s c s = (x, false, s') /\ delivers s' r f.
Proof.
  induction 1 as [|s|b s t f Hb Hd IH]; intros Hc; [destruct Hc|destruct Hc|].
  destruct (has c b) eqn:Hh.
  - pose proof (proj1 (has_true c b) Hh) as Hin. destruct (read_until c b) as [x r] eqn:E.
    exists x, (r ++ t), (match r with [] => s | _ => Data r :: s end). split; [apply until_more; assumption|]. split.
    + cbn [read_until_s]. destruct b as [|a b]; [congruence|]. rewrite E, Hh. reflexivity.
    + destruct r as [|a r]; [exact Hd|]. apply delivers_piece; [discriminate|exact Hd].
  - pose proof (proj1 (has_false c b) Hh) as Hnin. apply in_app_or in Hc as [Hc|Hc]; [contradiction|].
    destruct (IH Hc) as (x & r & s' & E1 & E2 & E3). exists (b ++ x), r, s'. split; [|split; [|exact E3]].
    + clear -Hnin E1. induction b as [|a b IHb]; [exact E1|]. cbn [app read_until].
      destruct (ceq a c) eqn:E; [apply ceq_true in E; subst; exfalso; apply Hnin; left; reflexivity|].
      rewrite IHb by (intros H; apply Hnin; right; exact H). reflexivity.
    + cbn [read_until_s]. destruct b as [|a b]; [congruence|]. rewrite (until_missing c (a :: b) Hnin), E2, Hh. reflexivity.
Qed.

(** *** the loop *)
Section Scan.
Context (c : ascii) (marker : text) (Hm : exists m, marker = m ++ [c]).
Lemma not_marker record x : x <> [] -> ~ In c x -> ends_with (record ++ x) marker = false.
Proof.
  intros Hx Hc. destruct (ends_with (record ++ x) marker) eqn:E; [|reflexivity]. apply ends_with_true in E as [a E].
  destruct Hm as [m ->]. destruct (exists_last Hx) as (y & d & ->). rewrite !app_assoc in E. apply app_inj_tail in E as [_ ->].
  exfalso. apply Hc. apply in_or_app. right. left. reflexivity.
Qed.

Lemma scan_s_spec : forall fuel fuel' record s t f, delivers s t f -> length t < fuel -> length t < fuel' ->
  match scan fuel' c marker record t with
  | Found r rest => exists s', scan_s fuel c marker record s = FoundS r s' /\ delivers s' rest f /\ length rest < length t
  | AtEnd r => exists s', scan_s fuel c marker record s = if f then FailS s' else AtEndS r []
  end.
Proof.
  induction fuel as [|fuel IH]; intros fuel' record s t f Hd Hf Hf'; [lia|]. destruct fuel' as [|fuel']; [lia|].
  destruct (in_dec ascii_dec c t) as [Hc|Hc].
  - destruct (until_s_found c s t f Hd Hc) as (x & r & s' & E1 & E2 & E3).
    destruct (until_found c t Hc) as (x' & r' & E1' & Et & _). rewrite E1 in E1'. injection E1' as -> ->.
    cbn [scan scan_s]. rewrite E1, E2. assert (Hl : length r' < length t) by (rewrite Et, !app_length; cbn; lia).
    destruct (x' ++ [c]) as [|a x] eqn:Ex; [destruct x'; discriminate|]. rewrite <- Ex in *.
    destruct (ends_with (record ++ (x' ++ [c])) marker) eqn:Ee.
    + exists s'. auto.
    + specialize (IH fuel' (record ++ (x' ++ [c])) s' r' f E3 ltac:(lia) ltac:(lia)).
      destruct (scan fuel' c marker (record ++ (x' ++ [c])) r'); [|exact IH].
      destruct IH as (s'' & I1 & I2 & I3). exists s''. split; [exact I1|]. split; [exact I2|lia].
  - destruct (until_s_missing c s t f Hd Hc) as (s' & E & Hs'). cbn [scan scan_s]. rewrite (until_missing c t Hc), E.
    destruct t as [|a t].
    + destruct f; [exists s'; reflexivity|]. rewrite Hs' by reflexivity. exists []. reflexivity.
    + rewrite not_marker by (try discriminate; exact Hc).
      destruct fuel' as [|fuel']; [cbn in Hf'; lia|]. cbn [scan read_until].
      destruct f; [exists s'; reflexivity|]. rewrite Hs' by reflexivity. exists [].
      destruct fuel as [|fuel]; [cbn in Hf; lia|]. reflexivity.
Qed.

Lemma scan_more : forall fuel fuel' record t r rest more, scan fuel c marker record t = Found r rest -> fuel <= fuel' ->
  scan fuel' c marker record (t ++ more) = Found r (rest ++ more).
Proof.
  induction fuel as [|fuel IH]; intros fuel' record t r rest more; [discriminate|]. intros H Hf. destruct fuel' as [|fuel']; [lia|].
  cbn [scan] in *. destruct (in_dec ascii_dec c t) as [Hc|Hc].
  - destruct (until_found c t Hc) as (x & q & E & _). rewrite (until_more c t _ _ more Hc E). rewrite E in H.
    destruct (x ++ [c]) as [|a y] eqn:Ex; [destruct x; discriminate|]. rewrite <- Ex in *.
    destruct (ends_with (record ++ (x ++ [c])) marker).
    + injection H as <- <-. reflexivity.
    + apply IH; [exact H|lia].
  - exfalso. rewrite (until_missing c t Hc) in H. destruct t as [|a t]; [discriminate|].
    rewrite not_marker in H by (try discriminate; exact Hc). destruct fuel; discriminate.
Qed.
End Scan.

Lemma delivers_size s t f : delivers s t f -> length t <= size s.
Proof. induction 1; [cbn; lia|cbn; lia|]. rewrite app_length. change (size (Data b :: s)) with (length b + size s). lia. Qed.

(** *** readers *)
Section Reader.
Context {St : Type} (F : format_reader St).
Hypothesis HM : exists m, f_mark F = m ++ [f_char F].
Hypothesis HH : exists m, f_header_mark F = m ++ [f_char F].

(** the same on the contents *)
Definition open_t (t : text) : option (text * text) :=
  match scan (S (length t)) (f_char F) (f_header_mark F) [] t with
  | Found h rest => match f_header F true h with Some h => Some (h, rest) | None => None end
  | AtEnd h => match f_header F false h with Some h => Some (h, []) | None => None end
  end.
Inductive next_t := TRecord (record : text) (st : St) (rest : text) | TEnd | TError | TPanic.
Definition raw_t (st : St) (t : text) : next_t :=
  match scan (S (length t)) (f_char F) (f_mark F) (f_start F) t with
  | Found r rest => match f_found F st r with VRecord r st => TRecord r st rest | VEnd => TEnd | VError => TError | VPanic => TPanic end
  | AtEnd r => match f_end F st r with VRecord r st => TRecord r st [] | VEnd => TEnd | VError => TError | VPanic => TPanic end
  end.
Fixpoint rest_t (fuel : nat) (st : St) (t : text) : list text * read_end :=
  match fuel with
  | 0 => ([], AllRead)
  | S fuel =>
      match raw_t st t with
      | TEnd => ([], AllRead)
      | TError => ([], ReadFailed)
      | TPanic => ([], ReadCrashed)
      | TRecord r st rest => let '(l, e) := rest_t fuel st rest in (r :: l, e)
      end
  end.

Lemma open_s_ok s t : delivers s t false ->
  match open_t t with
  | Some (h, rest) => exists s', open_s F s = Opened h s' /\ delivers s' rest false
  | None => open_s F s = OpenCrashed
  end.
Proof.
  intros Hd. pose proof (delivers_size _ _ _ Hd) as Hz.
  pose proof (scan_s_spec (f_char F) (f_header_mark F) HH (S (size s)) (S (length t)) [] s t false Hd ltac:(lia) ltac:(lia)) as H.
  unfold open_t, open_s. destruct (scan (S (length t)) _ _ [] t) as [h rest|h].
  - destruct H as (s' & -> & Hd' & _). destruct (f_header F true h); [exists s'; auto|reflexivity].
  - destruct H as (s' & ->). destruct (f_header F false h); [exists []; split; [reflexivity|apply delivers_end]|reflexivity].
Qed.
Lemma open_s_fail s t : delivers s t true ->
  match open_s F s with
  | Opened h s' => exists rest, delivers s' rest true /\ forall more, open_t (t ++ more) = Some (h, rest ++ more)
  | OpenFailed => True
  | OpenCrashed => forall more, open_t (t ++ more) = None
  end.
Proof.
  intros Hd. pose proof (delivers_size _ _ _ Hd) as Hz.
  pose proof (scan_s_spec (f_char F) (f_header_mark F) HH (S (size s)) (S (length t)) [] s t true Hd ltac:(lia) ltac:(lia)) as H.
  unfold open_s. destruct (scan (S (length t)) _ _ [] t) as [h rest|h] eqn:E.
  - destruct H as (s' & -> & Hd' & _).
    assert (M : forall more, scan (S (length (t ++ more))) (f_char F) (f_header_mark F) [] (t ++ more) = Found h (rest ++ more)).
    { intros more. eapply scan_more; [exact HH|exact E|rewrite app_length; lia]. }
    destruct (f_header F true h) as [h'|] eqn:Eh; [exists rest; split; [exact Hd'|]|]; intros more; unfold open_t; rewrite M, Eh; reflexivity.
  - destruct H as (s' & ->). exact I.
Qed.

Lemma raw_shorter st t r st' rest : raw_t st t = TRecord r st' rest -> t <> [] -> length rest < length t.
Proof.
  intros H Ht. assert (exists s, delivers s t false).
  { exists [Data t]. rewrite <- (app_nil_r t) at 2. apply delivers_piece; [exact Ht|apply delivers_end]. }
  destruct H0 as [s Hd]. pose proof (delivers_size _ _ _ Hd) as Hz.
  pose proof (scan_s_spec (f_char F) (f_mark F) HM (S (size s)) (S (length t)) (f_start F) s t false Hd ltac:(lia) ltac:(lia)) as P.
  unfold raw_t in H. destruct (scan (S (length t)) _ _ _ t) as [h q|h].
  - destruct P as (_ & _ & _ & Hl). destruct (f_found F st h); try discriminate. injection H as _ _ <-. exact Hl.
  - destruct (f_end F st h); try discriminate. injection H as _ _ <-. destruct t; [congruence|cbn; lia].
Qed.

(** At the end of the file nothing is delivered. *)
Hypothesis HE : forall st, f_end F st (f_start F) = VEnd.
Lemma raw_nil st : raw_t st [] = TEnd.
Proof. unfold raw_t. cbn. rewrite HE. reflexivity. Qed.

Lemma rest_s_ok : forall fuel fuel' st s t, delivers s t false -> length t < fuel -> length t < fuel' ->
  read_rest_s F fuel st s = rest_t fuel' st t.
Proof.
  induction fuel as [|fuel IH]; intros fuel' st s t Hd Hf Hf'; [lia|]. destruct fuel' as [|fuel']; [lia|].
  pose proof (delivers_size _ _ _ Hd) as Hz.
  pose proof (scan_s_spec (f_char F) (f_mark F) HM (S (size s)) (S (length t)) (f_start F) s t false Hd ltac:(lia) ltac:(lia)) as H.
  cbn [read_rest_s rest_t]. unfold read_raw_s, raw_t in *.
  destruct (scan (S (length t)) _ _ _ t) as [h q|h] eqn:E.
  - destruct H as (s' & -> & Hd' & Hl). destruct (f_found F st h) as [r st'| | |]; try reflexivity.
    rewrite (IH fuel' st' s' q Hd' ltac:(lia) ltac:(lia)). reflexivity.
  - destruct H as (s' & ->). destruct t as [|a t].
    + cbn in E. injection E as <-. rewrite HE. reflexivity.
    + destruct (f_end F st h) as [r st'| | |]; try reflexivity.
      rewrite (IH fuel' st' [] [] delivers_end) by (cbn in *; lia). reflexivity.
Qed.

Lemma rest_s_fail : forall fuel st s t, delivers s t true -> length t < fuel -> forall more fuel', length (t ++ more) < fuel' ->
  (exists l, read_rest_s F fuel st s = (l, ReadFailed) /\
     first_of l (fst (rest_t fuel' st (t ++ more)))) \/
  (exists l, read_rest_s F fuel st s = (l, ReadCrashed) /\ rest_t fuel' st (t ++ more) = (l, ReadCrashed)) \/
  (exists l, read_rest_s F fuel st s = (l, AllRead) /\ rest_t fuel' st (t ++ more) = (l, AllRead)).
Proof.
  induction fuel as [|fuel IH]; intros st s t Hd Hf more fuel' Hf'; [lia|]. destruct fuel' as [|fuel']; [lia|].
  pose proof (delivers_size _ _ _ Hd) as Hz.
  pose proof (scan_s_spec (f_char F) (f_mark F) HM (S (size s)) (S (length t)) (f_start F) s t true Hd ltac:(lia) ltac:(lia)) as H.
  cbn [read_rest_s]. unfold read_raw_s.
  destruct (scan (S (length t)) _ _ _ t) as [h q|h] eqn:E.
  - destruct H as (s' & -> & Hd' & Hl).
    assert (M : scan (S (length (t ++ more))) (f_char F) (f_mark F) (f_start F) (t ++ more) = Found h (q ++ more)).
    { eapply scan_more; [exact HM|exact E|rewrite app_length; lia]. }
    cbn [rest_t]. unfold raw_t. rewrite M. destruct (f_found F st h) as [r st'| | |].
    + rewrite app_length in Hf'. destruct (IH st' s' q Hd' ltac:(lia) more fuel' ltac:(rewrite app_length; lia)) as [(l & -> & Hl')|[(l & -> & ->)|(l & -> & ->)]].
      * left. exists (r :: l). split; [reflexivity|]. destruct Hl' as [m Hm]. destruct (rest_t fuel' st' (q ++ more)) as [l' e].
        exists m. cbn [fst app] in *. rewrite Hm. reflexivity.
      * right; left. exists (r :: l). auto.
      * right; right. exists (r :: l). auto.
    + right; right. exists []. auto.
    + left. exists []. split; [reflexivity|]. eexists. reflexivity.
    + right; left. exists []. auto.
  - destruct H as (s' & ->). left. exists []. split; [reflexivity|]. eexists. reflexivity.
Qed.
End Reader.
