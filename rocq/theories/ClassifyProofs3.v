(** Reading the STRIPPER XML files written by src/bin/classify-events.rs. *)
From Verif Require Import Base BaseProofs Num ModelEvent ModelText SpecText SpecFormats TextProofs ReaderProofs ParserProofs
  ModelHepMC ModelLHEF ModelStripper FormatProofs RecordProofs FileProofs FileProofs2 FileProofs3 ModelIO ModelPartition ModelClassify SpecClassify ClassifyProofs ClassifyProofs2.
From Coq Require Import Lia.

(** [strip_prefix] in front of a character that the prefix does not contain *)
Lemma strip_stop c s : forall m x, ~ In c m ->
  strip_prefix m (x ++ c :: s) = match strip_prefix m x with Some y => Some (y ++ c :: s) | None => None end.
Proof.
  induction m as [|a m IH]; intros x Hm; [reflexivity|]. destruct x as [|b x]; cbn [strip_prefix app].
  - destruct (ceq a c) eqn:E; [|reflexivity]. apply ceq_true in E. subst. exfalso. apply Hm. left. reflexivity.
  - destruct (ceq a b); [|reflexivity]. apply IH. intros H. apply Hm. right. exact H.
Qed.
Lemma strip_leaves m x y : strip_prefix m x = Some y -> exists z, x = z ++ y.
Proof. intros H. apply strip_prefix_some in H. eauto. Qed.
Lemma space0_stop c x s : is_space c = false -> space0 (x ++ c :: s) = space0 x ++ c :: s.
Proof. intros Hc. unfold space0. rewrite span_stop by exact Hc. reflexivity. Qed.
Lemma space0_leaves x : exists z, x = z ++ space0 x.
Proof. apply span_leaves. Qed.

Section Stop.
Context (N : NumOps) (D : N -> Prop) (double : parser N) (show : N -> text).
Hypothesis HT : number_text N D double show.
Context (c : ascii) (Hsp : is_space c = false) (Hnum : ~ number_char c) (Hdig : digit c = None)
  (Hplus : ceq c "+" = false) (Hminus : ceq c "-" = false) (Hcomma : c <> ","%char) (Hid : ~ In c (lit "id=" ++ [QUOTE])) (Hw : ~ In c (lit "w=" ++ [QUOTE])).

Lemma status_stop : stops c particle_status.
Proof.
  intros x s. unfold particle_status. rewrite space0_stop by exact Hsp. rewrite strip_stop by exact Hid.
  destruct (strip_prefix _ (space0 x)) as [y|]; [|reflexivity]. apply i32_stop; assumption.
Qed.
Lemma id_stop : stops c particle_id.
Proof.
  intros x s. unfold particle_id, chr. rewrite strip_stop by (intros [H|[]]; congruence).
  destruct (strip_prefix _ x) as [y|]; [|reflexivity]. apply i32_stop; assumption.
Qed.
Lemma comma_stop (o : option (N * text)) s : then_comma (match o with Some (a, y) => Some (a, y ++ c :: s) | None => None end) =
  match then_comma o with Some (a, y) => Some (a, y ++ c :: s) | None => None end.
Proof.
  destruct o as [[a y]|]; [|reflexivity]. cbn [then_comma]. unfold chr. rewrite strip_stop by (intros [H|[]]; congruence).
  destruct (strip_prefix _ y); reflexivity.
Qed.
Lemma momentum_stop : stops c (particle_momentum double).
Proof.
  intros x s. unfold particle_momentum. rewrite space0_stop by exact Hsp.
  rewrite (double_stop N D double show HT c Hnum), comma_stop. destruct (then_comma (double (space0 x))) as [[e t1]|]; [|reflexivity].
  rewrite (double_stop N D double show HT c Hnum), comma_stop. destruct (then_comma (double t1)) as [[px t2]|]; [|reflexivity].
  rewrite (double_stop N D double show HT c Hnum), comma_stop. destruct (then_comma (double t2)) as [[py t3]|]; [|reflexivity].
  rewrite (double_stop N D double show HT c Hnum). destruct (double t3) as [[pz t4]|]; [|reflexivity].
  rewrite space0_stop by exact Hsp. reflexivity.
Qed.
End Stop.

Section Leaves.
Context (N : NumOps) (D : N -> Prop) (double : parser N) (show : N -> text).
Hypothesis HT : number_text N D double show.
Lemma status_leaves : leaves particle_status.
Proof.
  intros x a y. unfold particle_status. destruct (strip_prefix _ (space0 x)) as [r|] eqn:E; [|discriminate]. intros H.
  apply i32_leaves in H as [z1 ->]. apply strip_leaves in E as [z2 E]. destruct (space0_leaves x) as [z3 Hx]. rewrite E in Hx.
  exists (z3 ++ z2 ++ z1). rewrite Hx at 1. rewrite <- !app_assoc. reflexivity.
Qed.
Lemma id_leaves : leaves particle_id.
Proof.
  intros x a y. unfold particle_id, chr. destruct (strip_prefix _ x) as [r|] eqn:E; [|discriminate]. intros H.
  apply i32_leaves in H as [z1 ->]. apply strip_leaves in E as [z2 ->]. exists (z2 ++ z1). rewrite <- app_assoc. reflexivity.
Qed.
Lemma comma_leaves : leaves (fun x => then_comma (double x)).
Proof.
  intros x a y H. destruct (double x) as [[b r]|] eqn:E; [|discriminate]. cbn [then_comma] in H. unfold chr in H.
  destruct (strip_prefix _ r) as [r'|] eqn:E2; [|discriminate]. injection H as _ <-.
  apply (double_leaves N D double show HT) in E as [z1 ->]. apply strip_leaves in E2 as [z2 ->]. exists (z1 ++ z2). apply app_assoc.
Qed.
Lemma momentum_leaves : leaves (particle_momentum double).
Proof.
  intros x a y. unfold particle_momentum.
  destruct (then_comma (double (space0 x))) as [[e t1]|] eqn:E1; [|discriminate].
  destruct (then_comma (double t1)) as [[px t2]|] eqn:E2; [|discriminate].
  destruct (then_comma (double t2)) as [[py t3]|] eqn:E3; [|discriminate].
  destruct (double t3) as [[pz t4]|] eqn:E4; [|discriminate]. intros H. injection H as _ <-.
  apply comma_leaves in E1 as [z1 E1]. apply comma_leaves in E2 as [z2 ->]. apply comma_leaves in E3 as [z3 ->].
  apply (double_leaves N D double show HT) in E4 as [z4 ->]. destruct (space0_leaves t4) as [z5 E5]. destruct (space0_leaves x) as [z0 E0].
  exists (z0 ++ z1 ++ z2 ++ z3 ++ z4 ++ z5). rewrite E0 at 1. rewrite E1. rewrite <- !app_assoc. do 5 f_equal. exact E5.
Qed.
Lemma start_leaves x y : particle_start x = Some y -> exists z, x = z ++ y /\ z <> [].
Proof.
  unfold particle_start. intros H. apply strip_prefix_some in H. destruct (span_leaves is_multispace x) as [z Hz]. rewrite H in Hz.
  exists (z ++ lit "<p"). split; [rewrite Hz at 1; rewrite <- app_assoc; reflexivity|]. destruct z; discriminate.
Qed.
End Leaves.

(** *** White space after the end tag changes nothing *)
Section White.
Context (N : NumOps) (D : N -> Prop) (double : parser N) (show : N -> text) (sort : sorter) (mw : bool).
Hypothesis HT : number_text N D double show.

Definition d_end (x : text) : Prop := x = [] \/ finishes_with ["d"%char] x.
Lemma d_end_suffix (z x : text) : d_end (z ++ x) -> d_end x.
Proof.
  intros [H|[a H]]; [apply app_eq_nil in H as [_ ->]; left; reflexivity|]. destruct x as [|b x _] using rev_ind; [left; reflexivity|].
  rewrite app_assoc in H. apply app_inj_tail in H as [_ ->]. right. exists x. reflexivity.
Qed.
Local Notation GT := ">"%char.
Lemma gt_number : ~ number_char GT.
Proof. intros H. apply FormatProofs.is_white_iff in H || idtac. unfold number_char, decimal_digit in H. cbn in H. 
  repeat match goal with H : _ \/ _ |- _ => destruct H as [H|H] end; try discriminate; lia. Qed.

Lemma white_no_start ws : Forall white ws -> particle_start ws = None.
Proof.
  intros H. unfold particle_start. destruct (span is_multispace ws) as [a b] eqn:E. apply span_spec in E as (-> & _). cbn [snd].
  apply strip_prefix_none. intros [q ->]. rewrite Forall_app in H. destruct H as [_ H]. inversion H as [|? ? Hc]; subst.
  apply is_white_iff in Hc. discriminate.
Qed.
Lemma particles_white f ws (b : EventBuilder N) : Forall white ws -> stripper_particles double f ws b = Ok b.
Proof. intros H. destruct f; cbn [stripper_particles]; rewrite white_no_start by exact H; reflexivity. Qed.

Lemma start_gt x s : particle_start (x ++ GT :: s) = match particle_start x with Some y => Some (y ++ GT :: s) | None => None end.
Proof. unfold particle_start. rewrite span_stop by reflexivity. cbn [snd]. apply strip_stop. cbn. intuition discriminate. Qed.

(** closing tags are found before the last character *)
Lemma close_gt x s : d_end x -> strip_prefix (lit "</p>") (x ++ GT :: s) = match strip_prefix (lit "</p>") x with Some y => Some (y ++ GT :: s) | None => None end.
Proof.
  intros Hd. destruct (strip_prefix (lit "</p>") x) as [y|] eqn:E.
  - apply strip_prefix_some in E. rewrite E. rewrite <- app_assoc. apply strip_prefix_app.
  - apply strip_prefix_none. intros [q Hq]. apply strip_prefix_none in E.
    destruct (app_split_mid _ _ _ _ Hq) as [(r & Hr & Hs)|(r & Hr & Hs)]; [apply E; exists r; exact Hr|].
    destruct r as [|r0 r]; [apply E; exists []; rewrite app_nil_r in *; exact (eq_sym Hr)|].
    cbn [app] in Hs. injection Hs as <- _.
    destruct (rev r) as [|r1 r'] eqn:Er.
    + apply (f_equal (@rev _)) in Er. rewrite rev_involutive in Er. cbn in Er. subst r.
      change (lit "</p>") with (lit "</p" ++ [GT]) in Hr. apply app_inj_tail in Hr as [Hr _]. subst x.
      destruct Hd as [Hd|[a Hd]]; [discriminate|]. change (lit "</p") with (lit "</" ++ ["p"%char]) in Hd. apply app_inj_tail in Hd as [_ Hd]. discriminate.
    + assert (Hr2 : r = rev r' ++ [r1]) by (rewrite <- (rev_involutive r), Er; reflexivity). rewrite Hr2 in Hr.
      change (x ++ GT :: rev r' ++ [r1]) with (x ++ (GT :: rev r') ++ [r1]) in Hr. rewrite app_assoc in Hr.
      change (lit "</p>") with (lit "</p" ++ [GT]) in Hr. apply app_inj_tail in Hr as [Hr _].
      assert (Hin : In GT (lit "</p")) by (rewrite Hr; apply in_or_app; right; left; reflexivity).
      cbn in Hin. intuition discriminate.
Qed.
Lemma find_close_gt s : ~ occurs (lit "</p>") (GT :: s) -> forall x, d_end x -> find (lit "</p>") (x ++ GT :: s) = find (lit "</p>") x.
Proof.
  intros Hs. induction x as [|a x IH]; intros Hd.
  - cbn [app]. destruct (find (lit "</p>") (GT :: s)) as [n|] eqn:E; [|reflexivity]. exfalso. apply Hs. apply find_some in E as (p & q & E & _). exists p, q. exact E.
  - pose proof (close_gt (a :: x) s Hd) as Hc. cbn [app] in *. 
    change (find (lit "</p>") (a :: x ++ GT :: s)) with (match strip_prefix (lit "</p>") (a :: x ++ GT :: s) with Some _ => Some 0 | None => match find (lit "</p>") (x ++ GT :: s) with Some n => Some (S n) | None => None end end).
    change (find (lit "</p>") (a :: x)) with (match strip_prefix (lit "</p>") (a :: x) with Some _ => Some 0 | None => match find (lit "</p>") x with Some n => Some (S n) | None => None end end).
    rewrite Hc. destruct (strip_prefix (lit "</p>") (a :: x)); [reflexivity|]. rewrite IH; [reflexivity|]. exact (d_end_suffix [a] x Hd).
Qed.
Lemma white_no_close s : Forall white s -> ~ occurs (lit "</p>") (GT :: s).
Proof.
  intros H (p & q & E). destruct p as [|p0 p]; [discriminate|]. cbn in E. injection E as <- E. rewrite E in H.
  rewrite Forall_app in H. destruct H as [_ H]. inversion H as [|? ? Hc]; subst. apply is_white_iff in Hc. discriminate.
Qed.
Lemma quote_gt x s : d_end x -> strip_prefix [QUOTE; GT] (x ++ GT :: s) = match strip_prefix [QUOTE; GT] x with Some y => Some (y ++ GT :: s) | None => None end.
Proof.
  intros Hd. destruct x as [|a [|b x]]; cbn [app strip_prefix].
  - reflexivity.
  - destruct (ceq QUOTE a) eqn:E; [|reflexivity]. apply ceq_true in E. subst a. destruct Hd as [Hd|[z Hd]]; [discriminate|].
    change [QUOTE] with ([] ++ [QUOTE]) in Hd. apply app_inj_tail in Hd as [_ Hd]. discriminate.
  - destruct (ceq QUOTE a); [|reflexivity]. destruct (ceq GT b); reflexivity.
Qed.

Lemma particles_gt s s' : Forall white s -> Forall white s' -> forall n x f f' b, length x <= n -> d_end x ->
  length x + length s < f -> length x + length s' < f' ->
  stripper_particles double f (x ++ GT :: s) b = stripper_particles double f' (x ++ GT :: s') b.
Proof.
  intros Hs Hs'. induction n as [|n IH]; intros x f f' b Hn Hd Hf Hf'.
  all: destruct f as [|f]; [lia|]; destruct f' as [|f']; [lia|]; cbn [stripper_particles]; rewrite !start_gt.
  { destruct x; [reflexivity|cbn in Hn; lia]. }
  destruct (particle_start x) as [y|] eqn:Ey; [|reflexivity].
  apply start_leaves in Ey as (z & -> & Hz). assert (Hy : d_end y) by (eapply d_end_suffix; exact Hd).
  assert (Hly : length y <= n /\ length y + length s < f /\ length y + length s' < f').
  { rewrite app_length in *. destruct z; [congruence|]. cbn [length] in *. lia. }
  clear z Hz Hd Hn Hf Hf'. destruct Hly as (Hn & Hf & Hf').
  assert (Hgtid : ~ In GT (lit "id=" ++ [QUOTE])) by (cbn; intuition discriminate).
  rewrite !(status_stop GT) by (try reflexivity; assumption).
  destruct (particle_status y) as [[st y1]|] eqn:E1; [|reflexivity]. cbn [or_err bind].
  apply status_leaves in E1 as [z1 ->]. pose proof (d_end_suffix _ _ Hy) as Hy1.
  destruct (negb (st =? 0)%Z).
  - rewrite !find_close_gt by (assumption || (apply white_no_close; assumption)).
    destruct (find (lit "</p>") y1) as [k|] eqn:Ek; [|reflexivity]. cbn [or_err bind].
    apply find_some in Ek as (p & q & -> & Hp & _). 
    assert (Hsk : forall s0, skipn (k + 4) ((p ++ lit "</p>" ++ q) ++ GT :: s0) = q ++ GT :: s0).
    { intros s0. replace ((p ++ lit "</p>" ++ q) ++ GT :: s0) with ((p ++ lit "</p>") ++ q ++ GT :: s0) by (rewrite <- !app_assoc; reflexivity).
      rewrite skipn_app. replace (k + 4 - length (p ++ lit "</p>")) with 0 by (rewrite app_length; change (length (lit "</p>")) with 4; lia).
      rewrite skipn_all2; [reflexivity|]. rewrite app_length. change (length (lit "</p>")) with 4. lia. }
    rewrite !Hsk. rewrite app_assoc in Hy1. assert (Hdq := d_end_suffix _ _ Hy1). rewrite !app_length in *. apply IH; [lia|exact Hdq|lia|lia].
  - assert (Hc : GT <> ","%char) by discriminate.
    rewrite !(id_stop GT) by (try reflexivity; assumption). destruct (particle_id y1) as [[pid y2]|] eqn:E2; [|reflexivity]. cbn [or_err bind].
    apply id_leaves in E2 as [z2 ->]. pose proof (d_end_suffix _ _ Hy1) as Hy2.
    rewrite !quote_gt by exact Hy2. destruct (strip_prefix [QUOTE; GT] y2) as [y3|] eqn:E3; [|reflexivity]. cbn [or_err bind].
    apply strip_leaves in E3 as [z3 ->]. pose proof (d_end_suffix _ _ Hy2) as Hy3.
    destruct y3 as [|a y3].
    + cbn [app]. change (128 <=? N_of_ascii GT)%N with false. cbn iota.
      (* nothing but white space left for the momentum *)
      assert (Hmom : forall s0, Forall white s0 -> particle_momentum double s0 = None).
      { intros s0 H0. unfold particle_momentum. destruct (space0_leaves s0) as [u Hu]. rewrite Hu in H0. rewrite Forall_app in H0. destruct H0 as [_ H0].
        destruct (double (space0 s0)) as [[v r]|] eqn:Ed; [|reflexivity]. exfalso.
        apply (nt_consumes _ _ _ _ HT) in Ed as (q & Eq & Hq & Hn'). rewrite Eq in H0. destruct q as [|q0 q]; [congruence|]. inversion H0 as [|? ? Hw]; subst.
        inversion Hn' as [|? ? Hnc]; subst. destruct Hw as [Hw|Hw]; [exact (number_char_not_ws _ Hnc Hw)|]. subst q0.
        unfold number_char, decimal_digit in Hnc. cbn in Hnc. repeat match goal with H : _ \/ _ |- _ => destruct H as [H|H] end; try discriminate; lia. }
      rewrite !Hmom by assumption. reflexivity.
    + cbn [app]. destruct (128 <=? N_of_ascii a)%N; [reflexivity|].
      assert (Hy3' : d_end y3) by (exact (d_end_suffix [a] y3 Hy3)).
      rewrite !(momentum_stop N D double show HT GT) by (try reflexivity; try assumption; apply gt_number).
      destruct (particle_momentum double y3) as [[p y4]|] eqn:E4; [|reflexivity]. cbn [or_err bind].
      apply (momentum_leaves N D double show HT) in E4 as [z4 ->]. pose proof (d_end_suffix _ _ Hy3') as Hy4.
      rewrite !close_gt by exact Hy4. destruct (strip_prefix (lit "</p>") y4) as [y5|] eqn:E5; [|reflexivity]. cbn [or_err bind].
      apply strip_leaves in E5 as [z5 ->]. pose proof (d_end_suffix _ _ Hy4) as Hy5.
      cbn [length] in *; rewrite ?app_length in *; cbn [length] in *; rewrite ?app_length in *. apply IH; [lia|exact Hy5|lia|lia].
Qed.

Lemma parse_white y s s' : Forall white s -> Forall white s' ->
  parse_stripper_xml double mw sort (y ++ stripper_end ++ s) = parse_stripper_xml double mw sort (y ++ stripper_end ++ s').
Proof.
  intros Hs Hs'. set (x := y ++ removelast stripper_end).
  assert (E : forall s0, y ++ stripper_end ++ s0 = x ++ GT :: s0) by (intros s0; unfold x; rewrite <- app_assoc; reflexivity).
  assert (Hd : d_end x) by (right; exists (y ++ lit "</Eventrecor"); unfold x; rewrite <- app_assoc; reflexivity).
  rewrite !E. clearbody x. clear E. unfold parse_stripper_xml, weight_start.
  rewrite !strip_stop by (cbn; intuition discriminate). destruct (strip_prefix subevent_mark x) as [x1|] eqn:E1; [|reflexivity].
  rewrite !space1_stop by reflexivity. destruct (space1 x1) as [x2|] eqn:E2; [|reflexivity].
  rewrite !strip_stop by (cbn; intuition discriminate). destruct (strip_prefix (lit "w=" ++ [QUOTE]) x2) as [x3|] eqn:E3; [|reflexivity]. cbn [or_err bind].
  rewrite !(double_stop N D double show HT GT gt_number). destruct (double x3) as [[w x4]|] eqn:E4; [|reflexivity]. cbn [or_err bind].
  assert (Hd4 : d_end x4).
  { apply strip_leaves in E1 as [z1 ->]. apply space1_leaves in E2 as [z2 ->]. apply strip_leaves in E3 as [z3 ->].
    apply (double_leaves N D double show HT) in E4 as [z4 ->]. do 4 apply d_end_suffix in Hd. exact Hd. }
  destruct (find [GT] x4) as [n|] eqn:F.
  - apply find_char_some in F as (a & q & -> & <- & Ha).
    assert (Hq : d_end q) by (apply (d_end_suffix (a ++ [GT])); rewrite <- app_assoc; exact Hd4).
    rewrite <- !app_assoc. cbn [app]. rewrite !find_char by exact Ha. cbn [or_err bind].
    assert (Hsk : forall s0 : text, skipn (length a + 1) (a ++ GT :: s0) = s0).
    { intros s0. replace (a ++ GT :: s0) with ((a ++ [GT]) ++ s0) by (rewrite <- app_assoc; reflexivity).
      rewrite skipn_app, app_length. cbn [length]. rewrite Nat.sub_diag, skipn_all2; [reflexivity|]. rewrite app_length. cbn. lia. }
    rewrite !Hsk. rewrite (particles_gt s s' Hs Hs' (length q) q _ (length (q ++ GT :: s')) _ (le_n _) Hq); [reflexivity| |]; rewrite app_length; cbn; lia.
  - apply find_char_none in F. rewrite !find_char by exact F. cbn [or_err bind].
    assert (Hsk : forall s0 : text, skipn (length x4 + 1) (x4 ++ GT :: s0) = s0).
    { intros s0. replace (x4 ++ GT :: s0) with ((x4 ++ [GT]) ++ s0) by (rewrite <- app_assoc; reflexivity).
      rewrite skipn_app, app_length. cbn [length]. rewrite Nat.sub_diag, skipn_all2; [reflexivity|]. rewrite app_length. cbn. lia. }
    rewrite !Hsk, !particles_white by assumption. reflexivity.
Qed.
End White.

(** *** The end tag after a record changes nothing *)
Section EndTag.
Context (N : NumOps) (D : N -> Prop) (double : parser N) (show : N -> text) (sort : sorter) (mw : bool).
Hypothesis HT : number_text N D double show.
Local Notation LT := "<"%char.
Let s : text := lit "/Eventrecord>" ++ [NL].

Lemma lt_start x : particle_start (x ++ LT :: s) = match particle_start x with Some y => Some (y ++ LT :: s) | None => None end.
Proof.
  unfold particle_start. rewrite span_stop by reflexivity. cbn [snd]. generalize (snd (span is_multispace x)). clear x. intros x.
  destruct x as [|a x]; [reflexivity|]. cbn [app lit list_ascii_of_string strip_prefix]. destruct (ceq LT a); [|reflexivity].
  destruct x as [|b x]; cbn [app]; [reflexivity|]. destruct (ceq "p" b); reflexivity.
Qed.
Lemma lt_close x y : strip_prefix (lit "</p>") x = Some y -> strip_prefix (lit "</p>") (x ++ LT :: s) = Some (y ++ LT :: s).
Proof. intros H. apply strip_prefix_some in H as ->. rewrite <- app_assoc. apply strip_prefix_app. Qed.
Lemma lt_find_close : forall x n, find (lit "</p>") x = Some n -> find (lit "</p>") (x ++ LT :: s) = Some n.
Proof.
  induction x as [|a x IH]; intros n H; [discriminate|].
  change (find (lit "</p>") (a :: x)) with (match strip_prefix (lit "</p>") (a :: x) with Some _ => Some 0 | None => match find (lit "</p>") x with Some n => Some (S n) | None => None end end) in H.
  change (find (lit "</p>") ((a :: x) ++ LT :: s)) with (match strip_prefix (lit "</p>") ((a :: x) ++ LT :: s) with Some _ => Some 0 | None => match find (lit "</p>") (x ++ LT :: s) with Some n => Some (S n) | None => None end end).
  destruct (strip_prefix (lit "</p>") (a :: x)) as [y|] eqn:E.
  - injection H as <-. rewrite (lt_close _ _ E). reflexivity.
  - destruct (find (lit "</p>") x) as [k|] eqn:Ek; [|discriminate]. injection H as <-. rewrite (IH k eq_refl).
    destruct (strip_prefix (lit "</p>") ((a :: x) ++ LT :: s)) as [q|] eqn:E2; [|reflexivity]. exfalso.
    apply strip_prefix_some in E2. apply strip_prefix_none in E. apply find_some in Ek as (u & v & -> & _ & _).
    destruct (app_split_mid _ _ _ _ E2) as [(r & Hr & _)|(r & Hr & _)]; [apply E; exists r; exact Hr|].
    assert (Hl := f_equal (@length ascii) Hr). cbn [length] in Hl. rewrite !app_length in Hl. cbn [length] in Hl. rewrite !app_length in Hl. change (length (lit "</p>")) with 4 in Hl. lia.
Qed.

Lemma particles_end : forall f x f' b b', length (x ++ LT :: s) <= f' ->
  stripper_particles double f x b = Ok b' -> stripper_particles double f' (x ++ LT :: s) b = Ok b'.
Proof.
  assert (Hnum : ~ number_char LT) by apply lt_not_number.
  assert (Hid : ~ In LT (lit "id=" ++ [QUOTE])) by (cbn; intuition discriminate).
  assert (Hcm : LT <> ","%char) by discriminate.
  induction f as [|f IH]; intros x f' b b' Hf' H; (destruct f' as [|f']; [rewrite app_length in Hf'; cbn in Hf'; lia|]);
    cbn [stripper_particles] in *; rewrite lt_start.
  { destruct (particle_start x); [discriminate|exact H]. }
  destruct (particle_start x) as [y|] eqn:Ey; [|exact H].
  apply start_leaves in Ey as (z & -> & Hz).
  assert (Hl : length (y ++ LT :: s) <= f').
  { rewrite <- app_assoc, app_length in Hf'. destruct z; [congruence|]. cbn [length] in Hf'. lia. }
  clear z Hz Hf'.
  rewrite (status_stop LT) by (try reflexivity; assumption).
  destruct (particle_status y) as [[st y1]|] eqn:E1; [|discriminate]. cbn [or_err bind] in *.
  apply status_leaves in E1 as [z1 ->].
  destruct (negb (st =? 0)%Z).
  - destruct (find (lit "</p>") y1) as [k|] eqn:Ek; [|discriminate]. rewrite (lt_find_close _ _ Ek). cbn [or_err bind] in *.
    apply find_some in Ek as (p & q & -> & Hp & _).
    assert (Hsk : forall w, skipn (k + 4) (p ++ lit "</p>" ++ w) = w).
    { intros w. rewrite app_assoc, skipn_app. replace (k + 4 - length (p ++ lit "</p>")) with 0 by (rewrite app_length; change (length (lit "</p>")) with 4; lia).
      rewrite skipn_all2; [reflexivity|]. rewrite app_length. change (length (lit "</p>")) with 4. lia. }
    rewrite <- !app_assoc. rewrite Hsk in *. apply IH; [|exact H]. rewrite !app_length in *. cbn [length] in *. lia.
  - rewrite (id_stop LT) by (try reflexivity; assumption). destruct (particle_id y1) as [[pid y2]|] eqn:E2; [|discriminate]. cbn [or_err bind] in *.
    apply id_leaves in E2 as [z2 ->].
    rewrite strip_stop by (cbn; intuition discriminate). destruct (strip_prefix [QUOTE; ">"%char] y2) as [y3|] eqn:E3; [|discriminate]. cbn [or_err bind] in *.
    apply strip_leaves in E3 as [z3 ->].
    destruct y3 as [|a y3]; [discriminate|]. cbn [app]. destruct (128 <=? N_of_ascii a)%N; [discriminate|].
    rewrite (momentum_stop N D double show HT LT) by (try reflexivity; assumption).
    destruct (particle_momentum double y3) as [[p y4]|] eqn:E4; [|discriminate]. cbn [or_err bind] in *.
    apply (momentum_leaves N D double show HT) in E4 as [z4 ->].
    destruct (strip_prefix (lit "</p>") y4) as [y5|] eqn:E5; [|discriminate]. rewrite (lt_close _ _ E5). cbn [or_err bind] in *.
    apply strip_leaves in E5 as [z5 ->]. apply IH; [|exact H].
    rewrite !app_length in *. cbn [length] in *. rewrite !app_length in *. cbn [length] in *. lia.
Qed.

Lemma parse_end_tag r ev : parse_stripper_xml double mw sort r = Ok ev ->
  parse_stripper_xml double mw sort (r ++ footer_line StripperXml) = Ok ev.
Proof.
  change (footer_line StripperXml) with (LT :: s).
  unfold parse_stripper_xml, weight_start. intros H.
  destruct (strip_prefix subevent_mark r) as [x1|] eqn:E1; [|discriminate].
  apply strip_prefix_some in E1 as ->. rewrite <- app_assoc, strip_prefix_app.
  rewrite space1_stop by reflexivity. destruct (space1 x1) as [x2|] eqn:E2; [|discriminate].
  rewrite strip_stop by (cbn; intuition discriminate). destruct (strip_prefix (lit "w=" ++ [QUOTE]) x2) as [x3|] eqn:E3; [|discriminate]. cbn [or_err bind] in *.
  rewrite (double_stop N D double show HT LT lt_not_number). destruct (double x3) as [[w x4]|] eqn:E4; [|discriminate]. cbn [or_err bind] in *.
  destruct (find [">"%char] x4) as [n|] eqn:F; [|discriminate].
  apply find_char_some in F as (a & q & -> & <- & Ha).
  rewrite <- !app_assoc. cbn [app]. rewrite !find_char by exact Ha. cbn [or_err bind] in *.
  assert (Hsk : forall s0 : text, skipn (length a + 1) (a ++ ">"%char :: s0) = s0).
  { intros s0. replace (a ++ ">"%char :: s0) with ((a ++ [">"%char]) ++ s0) by (rewrite <- app_assoc; reflexivity).
    rewrite skipn_app, app_length. cbn [length]. rewrite Nat.sub_diag, skipn_all2; [reflexivity|]. rewrite app_length. cbn. lia. }
  rewrite Hsk in *. destruct (stripper_particles double (length q) q _) as [b| |] eqn:Ep; try discriminate. cbn [bind] in H.
  rewrite (particles_end _ _ _ _ _ (le_n _) Ep). exact H.
Qed.
End EndTag.

(** *** The files *)
Lemma mark_join (l t : text) : begins_with (lit "</") t -> (forall p q, t = p ++ subevent_mark ++ q -> False) ->
  forall a b, l ++ t = a ++ subevent_mark ++ b -> exists b', l = a ++ subevent_mark ++ b'.
Proof.
  intros [t' ->] Ht a b E. destruct (app_split_mid _ _ _ _ E) as [(s & Hs & Hq)|(s & Hs & Hq)].
  - destruct s as [|c0 [|c1 [|c2 s]]]; cbn in Hq; [discriminate|injection Hq as <- Hq; discriminate|injection Hq as <- <- Hq; discriminate|].
    injection Hq as <- <- <- Hq. exists s. exact Hs.
  - exfalso. eapply Ht. exact Hq.
Qed.
Lemma stripper_tail_no_mark p q : footer_line StripperXml = p ++ subevent_mark ++ q -> False.
Proof. intros E. assert (H : ~ occurs subevent_mark (footer_line StripperXml)) by (apply find_none; reflexivity). apply H. exists p, q. exact E. Qed.
Lemma stripper_tail_lt : begins_with (lit "</") (footer_line StripperXml).
Proof. eexists. reflexivity. Qed.

Lemma stripper_count_le : forall fuel r l e, stripper_rest true fuel r = Some (l, e) -> (N.of_nat (length l) <= sr_rem r)%N.
Proof.
  induction fuel as [|fuel IH]; intros r l e H; cbn [stripper_rest] in H; [discriminate|].
  destruct (stripper_read_raw true r) as [|record r1| |] eqn:E; try discriminate.
  - injection H as <- <-. cbn. lia.
  - destruct (stripper_rest true fuel r1) as [[l' e']|] eqn:E1; [|discriminate]. injection H as <- <-. cbn [length].
    apply IH in E1. destruct (stripper_read_raw_spec true r) as [[_ H]|(rec & rest & _ & _ & _ & H)]; rewrite E in H; [discriminate|].
    destruct (utf8 rec); [|discriminate]. unfold usize_pred in H. destruct (sr_rem r =? 0)%N eqn:E0; [discriminate|].
    injection H as _ ->. cbn [sr_rem] in E1. apply N.eqb_neq in E0. lia.
Qed.

Lemma filter_but_last {A} (p : A -> bool) : forall l a x b, filter p l = a ++ x :: b -> b <> [] -> exists a' b', l = a' ++ x :: b' /\ b' <> [].
Proof.
  induction l as [|y l IH]; intros a x b H Hb; cbn [filter] in H; [destruct a; discriminate|].
  destruct (p y).
  - destruct a as [|a0 a]; cbn in H; injection H as <- H.
    + exists [], l. split; [reflexivity|]. intros ->. cbn in H. congruence.
    + destruct (IH _ _ _ H Hb) as (a' & b' & -> & ?). exists (y :: a'), b'. auto.
  - destruct (IH _ _ _ H Hb) as (a' & b' & -> & ?). exists (y :: a'), b'. auto.
Qed.

Section StripperFile.
Context (N : NumOps) (D : N -> Prop) (double : parser N) (show : N -> text) (sort : sorter) (mw : bool).
Hypothesis HT : number_text N D double show.
Let parse := parse_stripper_xml double mw sort.
Let tr (r : text) := trim_footer r StripperXml.

Lemma stripper_readback checks n file h records p : stripper_parts file h records -> forallb utf8 records = true ->
  (checks = true -> N.of_nat (length records) <= n)%N ->
  all_but_last (fun r => ~ exists y, footed stripper_end r y) records ->
  (forall r, In r records -> exists ev, parse r = Ok ev) ->
  exists rd rs e, stripper_open checks n (h ++ concat (map tr (filter p records)) ++ footer_line StripperXml) = Some rd /\
    stripper_records checks rd = Some (rs, e) /\
    Forall2 (fun r' r => parse r' = parse r) rs (filter p records).
Proof.
  intros (Hfile & Hne & Hoh & Hb) Hu Hn Hlast Hparse. rewrite forallb_forall in Hu.
  assert (Hwf : forall r, without_footer stripper_end r (tr r)) by (intros r; apply (trim_footer_spec StripperXml); discriminate).
  assert (Hin : forall r, In r (filter p records) -> In r records) by (intros r H; apply filter_In in H; tauto).
  assert (Hbut : forall a x b, filter p records = a ++ x :: b -> b <> [] -> tr x = x).
  { intros a x b E Hb'. destruct (filter_but_last p records a x b E Hb') as (a' & b' & E' & Hb2). destruct (Hwf x) as [Hf|[H _]]; [|exact H].
    exfalso. apply (Hlast a' x b' E' Hb2). eauto. }
  assert (Hlen : (checks = true -> N.of_nat (length (filter p records)) <= n)%N).
  { intros Hc. specialize (Hn Hc). assert (length (filter p records) <= length records) by (clear; induction records; cbn; [lia|]; destruct (p a); cbn; lia). lia. }
  remember (filter p records) as sel eqn:Esel. clear Esel.
  destruct sel as [|l sel _] using rev_ind.
  { cbn [map concat app]. unfold stripper_open. 
    destruct (stripper_init_spec checks (h ++ footer_line StripperXml)) as [[_ ->]|(h' & rest & E & _)].
    - replace (length (h ++ footer_line StripperXml) <? 3) with false by (symmetry; apply Nat.ltb_ge; rewrite app_length; cbn; lia).
      do 3 eexists. split; [reflexivity|]. split; [reflexivity|constructor].
    - exfalso. unfold se in E. apply mark_join in E as [b' E]; [|exact stripper_tail_lt|exact stripper_tail_no_mark]. apply Hoh. exists h', b'. exact E. }
  assert (Hsel : forall r, In r sel -> tr r = r).
  { intros r Hr. apply in_split in Hr as (a & b & ->). apply (Hbut a r (b ++ [l])); [rewrite <- app_assoc; reflexivity|destruct b; discriminate]. }
  assert (Hl : In l records) by (apply Hin; apply in_or_app; right; left; reflexivity).
  destruct (Hb l Hl) as [[bl Hbl] Hol]. destruct (without_prefix _ _ _ (Hwf l)) as [zl Hzl].
  set (l' := tr l ++ footer_line StripperXml).
  assert (Htl : begins_with subevent_start (tr l)).
  { destruct (Hwf l) as [(ws & E & _)|[-> _]]; [|exists bl; exact Hbl]. assert (E2 : subevent_start ++ bl = tr l ++ stripper_end ++ ws) by (transitivity l; [symmetry; exact Hbl|exact E]). clear E. rename E2 into E.
    destruct (tr l) as [|c0 [|c1 [|c2 q]]]; cbn in E; try discriminate. injection E as <- <- <- _. exists q. reflexivity. }
  assert (Hp : stripper_parts (h ++ concat (map tr (sel ++ [l])) ++ footer_line StripperXml) h (sel ++ [l'])).
  { split; [|split; [|split]].
    - rewrite map_app, !concat_app. cbn [map concat]. rewrite !app_nil_r, <- !app_assoc. unfold l'. f_equal. f_equal.
      f_equal. transitivity (map (fun r => r) sel); [|apply map_id]. apply map_ext_in. exact Hsel.
    - destruct sel; discriminate.
    - exact Hoh.
    - intros r Hr. apply in_app_iff in Hr as [Hr|[<-|[]]].
      + apply Hb, Hin. apply in_or_app. left. exact Hr.
      + split; [destruct Htl as [q Hq]; exists (q ++ footer_line StripperXml); unfold l'; rewrite Hq, <- app_assoc; reflexivity|].
        intros a b E. apply mark_join in E as [b' E]; [|exact stripper_tail_lt|exact stripper_tail_no_mark].
        apply (Hol a (b' ++ zl)). etransitivity; [exact Hzl|]. rewrite E, <- !app_assoc. reflexivity. }
  assert (Hend : ~ finishes_with subevent_mark (h ++ concat (map tr (sel ++ [l])) ++ footer_line StripperXml)).
  { intros [a Ha]. change (footer_line StripperXml) with (get_footer StripperXml ++ [NL]) in Ha. change subevent_mark with (lit "<s" ++ ["e"%char]) in Ha.
    rewrite !app_assoc in Ha. apply app_inj_tail in Ha as [_ Ha]. discriminate. }
  destruct (stripper_read_parts checks n _ _ _ Hp Hend) as (rd & Ho & _ & _ & _ & Hok & _).
  destruct Hok as [e He].
  - apply forallb_forall. intros r Hr. apply in_app_iff in Hr as [Hr|[<-|[]]].
    + apply Hu, Hin. apply in_or_app. left. exact Hr.
    + unfold l'. change (footer_line StripperXml) with ("<"%char :: tl (footer_line StripperXml)). rewrite utf8_cut by reflexivity.
      replace (utf8 (tr l)) with true; [reflexivity|]. symmetry. specialize (Hu l Hl).
      destruct (Hwf l) as [(ws & E & _)|[-> _]]; [|exact Hu]. apply (eq_trans (eq_sym (f_equal utf8 E))) in Hu.
      change (stripper_end ++ ws) with ("<"%char :: tl stripper_end ++ ws) in Hu. rewrite utf8_cut in Hu by reflexivity. apply andb_true_iff in Hu. tauto.
  - intros Hc. specialize (Hlen Hc). rewrite app_length in *. exact Hlen.
  - exists rd, (sel ++ [l']), e. split; [exact Ho|]. split; [exact He|]. apply Forall2_app.
    + clear. induction sel; constructor; auto.
    + constructor; [|constructor]. unfold l'. destruct (Hwf l) as [(ws & E & Hws)|[E _]]; fold (tr l) in *.
      * rewrite E at 2. apply (parse_white N D double show sort mw HT (tr l) [NL] ws); [|exact Hws]. constructor; [left; exact newline_ws|constructor].
      * rewrite E. destruct (Hparse l Hl) as [ev Hev]. etransitivity; [|symmetry; exact Hev]. apply (parse_end_tag N D double show sort mw HT). exact Hev.
Qed.
End StripperFile.
