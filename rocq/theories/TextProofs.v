(** Facts about texts, scanning and UTF-8. *)
From Verif Require Import Base BaseProofs ModelText SpecText.
From Coq Require Import Lia.

Lemma ceq_true a b : ceq a b = true <-> a = b.
Proof. apply Ascii.eqb_eq. Qed.
Lemma ceq_refl a : ceq a a = true.
Proof. apply Ascii.eqb_refl. Qed.
Lemma ceq_false a b : ceq a b = false <-> a <> b.
Proof. apply Ascii.eqb_neq. Qed.

Lemma strip_prefix_some p : forall t r, strip_prefix p t = Some r <-> t = p ++ r.
Proof.
  induction p as [|a p IH]; intros t r; cbn.
  - split; intros H; [injection H as ->; reflexivity | subst; reflexivity].
  - destruct t as [|b t]; cbn; [split; discriminate|].
    destruct (ceq a b) eqn:E.
    + apply ceq_true in E as ->. rewrite IH. split; intros H; [subst; reflexivity | injection H as ->; reflexivity].
    + apply ceq_false in E. split; intros H; [discriminate | injection H as -> ->; congruence].
Qed.
Lemma strip_prefix_app p r : strip_prefix p (p ++ r) = Some r.
Proof. apply strip_prefix_some. reflexivity. Qed.
Lemma strip_prefix_none p t : strip_prefix p t = None <-> ~ begins_with p t.
Proof.
  split.
  - intros H [b ->]. rewrite strip_prefix_app in H. discriminate.
  - intros H. destruct (strip_prefix p t) as [r|] eqn:E; [|reflexivity].
    apply strip_prefix_some in E. exfalso. apply H. exists r. exact E.
Qed.

Lemma ends_with_true t m : ends_with t m = true <-> finishes_with m t.
Proof.
  unfold ends_with, finishes_with. split.
  - destruct (strip_prefix (rev m) (rev t)) as [r|] eqn:E; [|discriminate]. intros _.
    apply strip_prefix_some in E. exists (rev r).
    rewrite <- (rev_involutive t), E, rev_app_distr, rev_involutive. reflexivity.
  - intros [a ->]. rewrite rev_app_distr. rewrite strip_prefix_app. reflexivity.
Qed.
Lemma ends_with_false t m : ends_with t m = false <-> ~ finishes_with m t.
Proof. rewrite <- ends_with_true. destruct (ends_with t m); split; congruence. Qed.

(** *** find *)
Lemma find_some sub : forall t n, find sub t = Some n ->
  exists a b, t = a ++ sub ++ b /\ length a = n /\
    (forall p q, a = p ++ q -> q <> [] -> ~ begins_with sub (q ++ sub ++ b)).
Proof.
  induction t as [|c t IH]; intros n; cbn [find].
  - destruct (strip_prefix sub []) as [r|] eqn:E; [|discriminate].
    intros H; injection H as <-. apply strip_prefix_some in E.
    exists [], r. split; [exact E|]. split; [reflexivity|].
    intros p q Ha Hq. symmetry in Ha. apply app_eq_nil in Ha as [_ ->]. congruence.
  - destruct (strip_prefix sub (c :: t)) as [r|] eqn:E.
    + intros H; injection H as <-. apply strip_prefix_some in E.
      exists [], r. split; [exact E|]. split; [reflexivity|].
      intros p q Ha Hq. symmetry in Ha. apply app_eq_nil in Ha as [_ ->]. congruence.
    + destruct (find sub t) as [k|] eqn:F; [|discriminate]. intros H; injection H as <-.
      destruct (IH k eq_refl) as (a & b & Ht & Hl & Hm).
      exists (c :: a), b. split; [rewrite Ht; reflexivity|]. split; [cbn; lia|].
      intros p q Ha Hq. destruct p as [|c' p]; cbn in Ha.
      * subst q. cbn. rewrite <- Ht. apply strip_prefix_none. exact E.
      * injection Ha as <- Ha. apply (Hm p q Ha Hq).
Qed.
Lemma find_none sub : forall t, find sub t = None -> ~ occurs sub t.
Proof.
  induction t as [|c t IH]; cbn [find].
  - destruct (strip_prefix sub []) eqn:E; [discriminate|]. intros _ (a & b & H).
    symmetry in H. apply app_eq_nil in H as [-> H]. apply app_eq_nil in H as [-> ->]. cbn in E. discriminate.
  - destruct (strip_prefix sub (c :: t)) eqn:E; [discriminate|].
    destruct (find sub t) eqn:F; [discriminate|]. intros _ (a & b & H).
    destruct a as [|c' a]; cbn in H.
    + apply strip_prefix_none in E. apply E. exists b. exact H.
    + injection H as _ H. apply (IH eq_refl). exists a, b. exact H.
Qed.
Lemma find_occurs sub t : occurs sub t -> exists n, find sub t = Some n.
Proof. intros H. destruct (find sub t) eqn:E; [eauto|]. apply find_none in E. contradiction. Qed.

(** single characters *)
Lemma find_char c a b : ~ In c a -> find [c] (a ++ c :: b) = Some (length a).
Proof.
  induction a as [|x a IH]; intros H; cbn.
  - rewrite ceq_refl. reflexivity.
  - destruct (ceq c x) eqn:E; [apply ceq_true in E; subst; exfalso; apply H; left; reflexivity|].
    rewrite IH; [reflexivity|]. intros HH; apply H; right; exact HH.
Qed.
Lemma find_char_some c t n : find [c] t = Some n -> exists a b, t = a ++ c :: b /\ length a = n /\ ~ In c a.
Proof.
  intros H. apply find_some in H as (a & b & -> & Hl & Hm). exists a, b. repeat split; auto.
  intros Hin. apply in_split in Hin as (l1 & l2 & ->).
  apply (Hm l1 (c :: l2) eq_refl); [discriminate|]. exists (l2 ++ [c] ++ b). reflexivity.
Qed.
Lemma find_char_none c t : find [c] t = None <-> ~ In c t.
Proof.
  split.
  - intros H Hin. apply find_none in H. apply H. apply in_split in Hin as (l1 & l2 & ->). exists l1, l2. reflexivity.
  - intros H. destruct (find [c] t) eqn:E; [|reflexivity]. apply find_char_some in E as (a & b & -> & _ & _).
    exfalso. apply H. apply in_or_app. right. left. reflexivity.
Qed.

(** *** read_until and scan *)
Lemma read_until_spec c : forall src x r, read_until c src = (x, r) ->
  src = x ++ r /\ ((exists y, x = y ++ [c] /\ ~ In c y) \/ (x = src /\ r = [] /\ ~ In c src)).
Proof.
  induction src as [|a src IH]; intros x r; cbn.
  - intros H; injection H as <- <-. split; [reflexivity|]. right. auto.
  - destruct (ceq a c) eqn:E.
    + apply ceq_true in E as ->. intros H; injection H as <- <-. split; [reflexivity|].
      left. exists []. split; [reflexivity|auto].
    + apply ceq_false in E. destruct (read_until c src) as [y s] eqn:R. intros H; injection H as <- <-.
      destruct (IH _ _ eq_refl) as [-> [(z & -> & Hz)|(Hz1 & Hz2 & Hz)]].
      * split; [reflexivity|]. left. exists (a :: z). split; [reflexivity|].
        intros [->|Hin]; [congruence|contradiction].
      * split; [reflexivity|]. right. subst s. rewrite app_nil_r in *. repeat split; auto.
        intros [->|Hin]; [congruence|contradiction].
Qed.

Lemma app_split_mid {A} (x r p q : list A) : x ++ r = p ++ q ->
  (exists s, x = p ++ s /\ q = s ++ r) \/ (exists s, p = x ++ s /\ r = s ++ q).
Proof.
  revert p; induction x as [|a x IH]; intros p H; cbn in H.
  - right. exists p. split; auto.
  - destruct p as [|b p]; cbn in H.
    + left. exists (a :: x). split; [reflexivity|]. cbn. subst q. reflexivity.
    + injection H as <- H. destruct (IH p H) as [(s & -> & ->)|(s & -> & ->)]; [left|right]; exists s; auto.
Qed.

(** What a scan does, in terms of the text alone: it stops after the first non-empty prefix of
    the source that completes the marker. *)
Definition completes (marker record p : text) : Prop := p <> [] /\ finishes_with marker (record ++ p).

Lemma finishes_last (m : text) c t : (exists m', m = m' ++ [c]) -> finishes_with m t -> exists t', t = t' ++ [c].
Proof. intros [m' ->] [a ->]. exists (a ++ m'). rewrite app_assoc. reflexivity. Qed.

Lemma scan_spec c marker : (exists m', marker = m' ++ [c]) ->
  forall fuel record src, length src < fuel ->
  match scan fuel c marker record src with
  | Found rec rest => exists x, src = x ++ rest /\ rec = record ++ x /\ completes marker record x /\
        forall p q, x = p ++ q -> q <> [] -> ~ completes marker record p
  | AtEnd rec => rec = record ++ src /\ forall p q, src = p ++ q -> ~ completes marker record p
  end.
Proof.
  intros Hm. induction fuel as [|fuel IH]; intros record src Hl; [lia|].
  cbn [scan]. destruct (read_until c src) as [x rest] eqn:R.
  destruct (read_until_spec _ _ _ _ R) as [Hsrc Hx].
  destruct x as [|a x'] eqn:Ex.
  - assert (src = []) as ->.
    { destruct Hx as [(y & Hy & _)|(Hx & _)]; [destruct y; discriminate|auto]. }
    rewrite app_nil_r. split; [reflexivity|]. intros p q Hpq [Hp _]. symmetry in Hpq. apply app_eq_nil in Hpq as [-> _]. congruence.
  - assert (Hxne : x <> []) by congruence. rewrite <- Ex in *. clear Ex.
    (* only the prefix [x] can complete the marker among the prefixes of [x] *)
    assert (Honly : forall p q, x = p ++ q -> q <> [] -> ~ completes marker record p).
    { intros p q Hpq Hq [Hp Hf].
      destruct (finishes_last _ c _ Hm Hf) as [t' Ht'].
      destruct (exists_last Hp) as (p' & c' & ->). rewrite app_assoc in Ht'.
      apply app_inj_tail in Ht' as [_ ->].
      assert (Hin : In c (p' ++ [c])) by (apply in_or_app; right; left; reflexivity).
      destruct Hx as [(y & Hy & Hny)|(Hx & _ & Hn)].
      - rewrite Hpq in Hy. destruct (exists_last Hq) as (q' & c' & ->).
        rewrite app_assoc in Hy. apply app_inj_tail in Hy as [Hy _]. apply Hny. rewrite <- Hy.
        apply in_or_app. left. exact Hin.
      - apply Hn. rewrite <- Hx, Hpq. apply in_or_app. left. exact Hin. }
    destruct (ends_with (record ++ x) marker) eqn:E.
    + exists x. split; [exact Hsrc|]. split; [reflexivity|]. split; [split; [exact Hxne|apply ends_with_true; exact E]|].
      exact Honly.
    + assert (Hnx : ~ completes marker record x).
      { intros [_ Hf]. apply ends_with_false in E. contradiction. }
      assert (Hl' : length rest < fuel).
      { rewrite Hsrc, app_length in Hl. destruct x; [congruence|cbn [length] in Hl; lia]. }
      specialize (IH (record ++ x) rest Hl').
      assert (Hpre : forall s, s <> [] -> completes marker record (x ++ s) -> completes marker (record ++ x) s).
      { intros s Hs [_ Hf]. split; [exact Hs|]. rewrite <- app_assoc. exact Hf. }
      destruct (scan fuel c marker (record ++ x) rest) as [rec r'|rec].
      * destruct IH as (y & -> & -> & [Hy Hf] & Hmin). exists (x ++ y).
        split; [rewrite Hsrc, app_assoc; reflexivity|]. split; [rewrite app_assoc; reflexivity|].
        split; [split; [destruct x; [congruence|discriminate]|rewrite app_assoc; exact Hf]|].
        intros p q Hpq Hq Hc. destruct (app_split_mid _ _ _ _ Hpq) as [(s & Hs & Hq')|(s & Hs & Hr)].
        -- destruct s as [|a0 s].
           ++ rewrite app_nil_r in Hs. subst p. contradiction.
           ++ apply (Honly p (a0 :: s) Hs); [discriminate|exact Hc].
        -- subst p. destruct s as [|a0 s]; [rewrite app_nil_r in Hc; contradiction|].
           apply (Hmin (a0 :: s) q Hr Hq). apply Hpre; [discriminate|exact Hc].
      * destruct IH as [-> Hmin]. split; [rewrite Hsrc, app_assoc; reflexivity|].
        intros p q Hpq Hc. rewrite Hsrc in Hpq. destruct (app_split_mid _ _ _ _ Hpq) as [(s & Hs & Hq')|(s & Hs & Hr)].
        -- destruct s as [|a0 s].
           ++ rewrite app_nil_r in Hs. subst p. contradiction.
           ++ apply (Honly p (a0 :: s) Hs); [discriminate|exact Hc].
        -- subst p. destruct s as [|a0 s]; [rewrite app_nil_r in Hc; contradiction|].
           apply (Hmin (a0 :: s) q Hr). apply Hpre; [discriminate|exact Hc].
Qed.

(** *** UTF-8: cutting before an ASCII character *)
Definition is_ascii (c : ascii) : Prop := (N_of_ascii c < 128)%N.

Definition cont_ok (s : utf8_state) : Prop := match s with None => True | Some (_, lo, _) => (128 <= lo)%N end.

Lemma utf8_step_cont s c s' : cont_ok s -> utf8_step s c = Some s' -> cont_ok s'.
Proof.
  unfold utf8_step. destruct s as [[[n lo] hi]|]; cbn; intros H.
  - destruct (_ && _); [|discriminate]. destruct n as [|[|n]]; intros E; injection E as <-; cbn; lia.
  - repeat (destruct (_ && _); [intros E; injection E as <-; cbn; lia|]). discriminate.
Qed.
Lemma utf8_step_ascii s c s' : cont_ok s -> is_ascii c -> utf8_step s c = Some s' -> s = None /\ s' = None.
Proof.
  unfold utf8_step, is_ascii. destruct s as [[[n lo] hi]|]; cbn; intros H Hc.
  - replace (lo <=? N_of_ascii c)%N with false by (symmetry; apply N.leb_gt; lia). cbn. discriminate.
  - replace (N_of_ascii c <=? 127)%N with true by (symmetry; apply N.leb_le; lia).
    replace (0 <=? N_of_ascii c)%N with true by (symmetry; apply N.leb_le; lia).
    cbn. intros E; injection E as <-. auto.
Qed.
Lemma utf8_from_cut a : forall s c b, cont_ok s -> is_ascii c ->
  utf8_from s (a ++ c :: b) = utf8_from s a && utf8_from None (c :: b).
Proof.
  induction a as [|x a IH]; intros s c b Hs Hc; cbn [app utf8_from].
  - destruct (utf8_step s c) as [s'|] eqn:E.
    + destruct (utf8_step_ascii _ _ _ Hs Hc E) as [-> ->]. rewrite E. reflexivity.
    + destruct s; [reflexivity|]. rewrite E. reflexivity.
  - destruct (utf8_step s x) as [s'|] eqn:E; [|reflexivity].
    apply IH; [eapply utf8_step_cont; eauto|exact Hc].
Qed.
Lemma utf8_cut a c b : is_ascii c -> utf8 (a ++ c :: b) = utf8 a && utf8 (c :: b).
Proof. intros H. apply utf8_from_cut; [exact I|exact H]. Qed.
Lemma utf8_cons c b : is_ascii c -> utf8 (c :: b) = utf8 b.
Proof.
  intros H. unfold utf8. cbn [utf8_from]. destruct (utf8_step None c) as [s'|] eqn:E.
  - destruct (utf8_step_ascii None c s' I H E) as [_ ->]. reflexivity.
  - exfalso. unfold utf8_step in E. unfold is_ascii in H.
    replace (N_of_ascii c <=? 127)%N with true in E by (symmetry; apply N.leb_le; lia).
    replace (0 <=? N_of_ascii c)%N with true in E by (symmetry; apply N.leb_le; lia). discriminate.
Qed.
Lemma utf8_cut_after a c b : is_ascii c -> utf8 (a ++ c :: b) = utf8 (a ++ [c]) && utf8 b.
Proof.
  intros H. rewrite !utf8_cut by exact H. rewrite !utf8_cons by exact H. unfold utf8 at 4. cbn. rewrite andb_true_r. reflexivity.
Qed.
