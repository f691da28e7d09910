(** Proofs about src/bin/classify-events.rs. *)
From Verif Require Import Base BaseProofs Num ModelEvent ModelText SpecText SpecFormats TextProofs ReaderProofs ParserProofs
  ModelHepMC ModelLHEF ModelStripper FormatProofs RecordProofs FileProofs FileProofs2 FileProofs3 ModelIO ModelPartition ModelClassify SpecClassify.
From Coq Require Import Lia.

(** *** Removing the footer *)
Lemma trim_end_spec t : exists ws, t = trim_end t ++ ws /\ Forall white ws /\
  (forall a c, trim_end t = a ++ [c] -> ~ white c).
Proof.
  unfold trim_end. destruct (span is_white (rev t)) as [a b] eqn:E. apply span_spec in E as (E & Ha & Hb). cbn [snd].
  exists (rev a). split; [|split].
  - rewrite <- rev_app_distr, <- E, rev_involutive. reflexivity.
  - apply Forall_rev. eapply Forall_impl; [|exact Ha]. intros c. apply is_white_iff.
  - intros x c H. assert (b = c :: rev x) as ->.
    { rewrite <- (rev_involutive b), H, rev_app_distr. reflexivity. }
    cbn in Hb. apply is_white_false in Hb. exact Hb.
Qed.

Lemma strip_suffix_spec suf t y : strip_suffix suf t = Some y <-> t = y ++ suf.
Proof.
  unfold strip_suffix. destruct (strip_prefix (rev suf) (rev t)) as [r|] eqn:E.
  - apply strip_prefix_some in E. assert (Ht : t = rev r ++ suf).
    { rewrite <- (rev_involutive t), E, rev_app_distr, rev_involutive. reflexivity. }
    split; [intros H; injection H as <-; exact Ht|]. intros H. rewrite Ht in H. apply app_inv_tail in H. rewrite H. reflexivity.
  - split; [discriminate|]. intros ->. rewrite rev_app_distr, strip_prefix_app in E. discriminate.
Qed.

(** removing white space from the end *)
Lemma white_end (a b ws ws' : text) c c' : a ++ c :: ws = b ++ c' :: ws' -> Forall white ws -> Forall white ws' ->
  ~ white c -> ~ white c' -> a = b /\ c = c' /\ ws = ws'.
Proof.
  intros E H H' Hc Hc'. destruct (app_split_mid _ _ _ _ E) as [(s & Hs & Hq)|(s & Hs & Hq)].
  - destruct s as [|x s]; cbn in Hq; injection Hq as <- Hq; [rewrite app_nil_r in Hs; auto|].
    exfalso. subst ws'. rewrite Forall_app in H'. destruct H' as [_ H']. inversion H'; contradiction.
  - destruct s as [|x s]; cbn in Hq; injection Hq as <- Hq; [rewrite app_nil_r in Hs; auto|].
    exfalso. subst ws. rewrite Forall_app in H. destruct H as [_ H]. inversion H; contradiction.
Qed.

Definition footer_char (f : format) : ascii := match f with HepMC2 => "G" | _ => ">" end.
Lemma footer_last f : f <> BlackHatNtuple -> exists a, get_footer f = a ++ [footer_char f].
Proof. intros H. exists (removelast (get_footer f)). destruct f; try congruence; reflexivity. Qed.
Lemma footer_char_black f : ~ white (footer_char f).
Proof. apply is_white_false. destruct f; reflexivity. Qed.

Lemma footed_unique f r y y' : f <> BlackHatNtuple -> footed (get_footer f) r y -> footed (get_footer f) r y' -> y = y'.
Proof.
  intros Hf (ws & E & H) (ws' & E' & H'). destruct (footer_last f Hf) as [a Ha]. rewrite E in E'. rewrite Ha in E'.
  rewrite <- !app_assoc in E'. cbn [app] in E'. rewrite !(app_assoc _ a) in E'.
  apply white_end in E'; auto using footer_char_black. destruct E' as [E' _]. apply app_inv_tail in E'. exact E'.
Qed.

Lemma trim_footer_spec f r : f <> BlackHatNtuple -> without_footer (get_footer f) r (trim_footer r f).
Proof.
  intros Hf. unfold trim_footer. destruct (trim_end_spec r) as (ws & E & Hw & Hl).
  destruct (strip_suffix (get_footer f) (trim_end r)) as [y|] eqn:Ey.
  - apply strip_suffix_spec in Ey. left. exists ws. split; [|exact Hw]. etransitivity; [exact E|]. rewrite Ey, <- app_assoc. reflexivity.
  - right. split; [reflexivity|]. intros (y & ws' & E' & Hw').
    destruct (footer_last f Hf) as [a Ha].
    assert (Hr : r = (y ++ a) ++ footer_char f :: ws') by (rewrite E', Ha, <- !app_assoc; reflexivity).
    destruct (trim_end r) as [|x t] eqn:Et using rev_ind.
    + cbn in E. rewrite E in Hr. rewrite Hr in Hw. rewrite Forall_app in Hw. destruct Hw as [_ Hw]. inversion Hw; subst.
      exact (footer_char_black f H1).
    + assert (Hq : t ++ x :: ws = (y ++ a) ++ footer_char f :: ws').
      { rewrite <- Hr. etransitivity; [|symmetry; exact E]. rewrite <- app_assoc. reflexivity. }
      clear IHt. apply white_end in Hq; [|exact Hw|exact Hw'|eapply Hl; reflexivity|apply footer_char_black].
      destruct Hq as (-> & -> & _).
      assert (strip_suffix (get_footer f) ((y ++ a) ++ [footer_char f]) = Some y) by (apply strip_suffix_spec; rewrite Ha, <- app_assoc; reflexivity).
      congruence.
Qed.
Lemma without_footer_unique f r y y' : f <> BlackHatNtuple -> without_footer (get_footer f) r y -> without_footer (get_footer f) r y' -> y = y'.
Proof.
  intros Hf [H|[-> H]] [H'|[-> H']]; [eapply footed_unique; eauto|exfalso; eauto|exfalso; eauto|reflexivity].
Qed.

(** *** The loop *)
Section Loop.
Context (N : NumOps) (double : parser N) (mw : bool) (sort : sorter)
  (cluster : Event N -> option (Event N)) (dist : Event N -> Event N -> N) (vp : list (Bisection N (Event N))).
Let region_of := record_region double mw sort cluster dist vp.
Let loop := classify_loop double mw sort cluster dist vp.
Definition place (f : format) (r : text) : nat := match region_of f r with Ok i => i | _ => 0 end.

Lemma loop_spec f : forall records outs outs', loop f records outs = Ok outs' ->
  length outs' = length outs /\
  (forall r, In r records -> region_of f r = Ok (place f r) /\ place f r < length outs) /\
  forall i o, nth_error outs i = Some o ->
    nth_error outs' i = Some (o ++ concat (map (fun r => trim_footer r f) (filter (fun r => place f r =? i) records))).
Proof.
  unfold loop. induction records as [|r records IH]; intros outs outs' H; cbn [classify_loop] in H.
  - injection H as <-. split; [reflexivity|]. split; [intros r []|]. intros i o Ho. cbn. rewrite app_nil_r. exact Ho.
  - fold (region_of f r) in H. destruct (region_of f r) as [i| |] eqn:Er; try discriminate. cbn [bind] in H.
    destruct (nth_error outs i) as [out|] eqn:Eo; [|discriminate].
    assert (Hi : i < length outs) by (apply nth_error_Some; congruence).
    destruct (set_nth_split _ (out ++ trim_footer r f) _ Eo) as (l1 & l2 & Hl & Hl1 & Es).
    rewrite Es in H. apply IH in H as (HL & HR & HN).
    assert (Hlen : length (l1 ++ (out ++ trim_footer r f) :: l2) = length outs) by (rewrite Hl, !app_length; reflexivity).
    unfold text in *. rewrite Hlen in *. split; [exact HL|]. 
    assert (Hp : place f r = i) by (unfold place; rewrite Er; reflexivity).
    split.
    + intros r' [<-|Hr']; [rewrite Hp; auto|apply HR; exact Hr'].
    + intros j o Hj. cbn [filter]. rewrite Hp. destruct (Nat.eqb_spec i j) as [->|Hij].
      * rewrite Eo in Hj. injection Hj as <-. cbn [map concat]. rewrite app_assoc. apply HN.
        rewrite nth_error_app2 by lia. rewrite Hl1, Nat.sub_diag. reflexivity.
      * apply HN. rewrite Hl in Hj. rewrite <- Hj. destruct (Nat.lt_ge_cases j i).
        -- rewrite !nth_error_app1 by lia. reflexivity.
        -- rewrite !nth_error_app2 by lia. destruct (j - length l1) eqn:Ej; [lia|]. reflexivity.
Qed.

Lemma loop_ok f : forall records outs, (forall r, In r records -> exists i, region_of f r = Ok i /\ i < length outs) ->
  exists outs', loop f records outs = Ok outs'.
Proof.
  unfold loop. induction records as [|r records IH]; intros outs H; cbn [classify_loop]; [eauto|].
  destruct (H r (or_introl eq_refl)) as (i & Er & Hi). fold (region_of f r). rewrite Er. cbn [bind].
  destruct (nth_error outs i) as [out|] eqn:Eo; [|apply nth_error_None in Eo; lia].
  destruct (set_nth_split _ (out ++ trim_footer r f) _ Eo) as (l1 & l2 & Hl & Hl1 & Es). rewrite Es. apply IH.
  intros r' Hr'. destruct (H r' (or_intror Hr')) as (i' & ? & ?). exists i'. split; auto. rewrite Hl in *. rewrite !app_length in *. cbn in *. lia.
Qed.
End Loop.

(** *** Parsers do not look beyond the end of a line *)
Section Lines.
Definition stops (c : ascii) {A} (p : parser A) : Prop := forall x s,
  p (x ++ c :: s) = match p x with Some (a, y) => Some (a, y ++ c :: s) | None => None end.
Definition leaves {A} (p : parser A) : Prop := forall x a y, p x = Some (a, y) -> exists z, x = z ++ y.

Lemma span_stop p c x s : p c = false -> span p (x ++ c :: s) = (fst (span p x), snd (span p x) ++ c :: s).
Proof.
  intros Hc. induction x as [|a x IH]; cbn; [rewrite Hc; reflexivity|].
  destruct (p a); [|reflexivity]. rewrite IH. destruct (span p x); reflexivity.
Qed.
Lemma span_leaves p x : exists z, x = z ++ snd (span p x).
Proof. destruct (span p x) as [a b] eqn:E. apply span_spec in E as (-> & _). eauto. Qed.
Lemma space1_stop c x s : is_space c = false -> space1 (x ++ c :: s) = match space1 x with Some y => Some (y ++ c :: s) | None => None end.
Proof. intros Hc. unfold space1. rewrite span_stop by exact Hc. destruct (span is_space x) as [[|? ?] ?]; reflexivity. Qed.
Lemma space1_leaves x y : space1 x = Some y -> exists z, x = z ++ y.
Proof.
  unfold space1. destruct (span is_space x) as [[|? ?] b] eqn:E; [discriminate|]. intros H. injection H as <-.
  apply span_spec in E as (-> & _). eauto.
Qed.
Lemma preceded1_stop c {A} (p : parser A) : is_space c = false -> stops c p -> stops c (preceded1 p).
Proof. intros Hc Hp x s. unfold preceded1. rewrite space1_stop by exact Hc. destruct (space1 x); [apply Hp|reflexivity]. Qed.
Lemma preceded1_leaves {A} (p : parser A) : leaves p -> leaves (preceded1 p).
Proof.
  intros Hp x a y. unfold preceded1. destruct (space1 x) as [r|] eqn:E; [|discriminate]. intros H.
  apply space1_leaves in E as [z ->]. apply Hp in H as [z' ->]. exists (z ++ z'). apply app_assoc.
Qed.
Lemma non_space_stop c : is_ws c = true -> stops c non_space.
Proof. intros Hc x s. unfold non_space. rewrite span_stop by (rewrite Hc; reflexivity). destruct (span _ x) as [[|? ?] ?]; reflexivity. Qed.
Lemma non_space_leaves : leaves non_space.
Proof.
  intros x a y. unfold non_space. destruct (span _ x) as [[|? ?] b] eqn:E; [discriminate|]. intros H. injection H as <- <-.
  apply span_spec in E as (-> & _). eauto.
Qed.
Lemma digits_stop c s : digit c = None -> forall x v, digits_from v (x ++ c :: s) = match digits_from v x with Some (a, y) => Some (a, y ++ c :: s) | None => None end.
Proof.
  intros Hc. induction x as [|a x IH]; intros v; cbn [app digits_from]; [rewrite Hc; reflexivity|].
  destruct (digit a); [|reflexivity]. destruct (_ <? _)%N; [apply IH|reflexivity].
Qed.
Lemma digits_leaves : forall x v a y, digits_from v x = Some (a, y) -> exists z, x = z ++ y.
Proof.
  induction x as [|c x IH]; intros v a y; cbn [digits_from]; [intros H; injection H as _ <-; exists []; reflexivity|].
  destruct (digit c); [|intros H; injection H as _ <-; exists []; reflexivity].
  destruct (_ <? _)%N; [|discriminate]. intros H. apply IH in H as [z ->]. exists (c :: z). reflexivity.
Qed.
Lemma u32_stop c : digit c = None -> stops c u32.
Proof.
  intros Hc x s. unfold u32. destruct x as [|a x]; cbn [app]; [rewrite Hc; reflexivity|].
  destruct (digit a); [|reflexivity]. apply (digits_stop c s Hc (a :: x)).
Qed.
Lemma u32_leaves : leaves u32.
Proof. intros x a y. unfold u32. destruct x as [|c x]; [discriminate|]. destruct (digit c); [|discriminate]. apply digits_leaves. Qed.
Lemma signed_stop c s pos : digit c = None -> forall x v, signed_from pos v (x ++ c :: s) = match signed_from pos v x with Some (a, y) => Some (a, y ++ c :: s) | None => None end.
Proof.
  intros Hc. induction x as [|a x IH]; intros v; cbn [app signed_from]; [rewrite Hc; reflexivity|].
  destruct (digit a); [|reflexivity]. destruct (_ && _); [apply IH|reflexivity].
Qed.
Lemma signed_leaves pos : forall x v a y, signed_from pos v x = Some (a, y) -> exists z, x = z ++ y.
Proof.
  induction x as [|c x IH]; intros v a y; cbn [signed_from]; [intros H; injection H as _ <-; exists []; reflexivity|].
  destruct (digit c); [|intros H; injection H as _ <-; exists []; reflexivity].
  destruct (_ && _); [|discriminate]. intros H. apply IH in H as [z ->]. exists (c :: z). reflexivity.
Qed.
Lemma i32_stop c : digit c = None -> ceq c "+" = false -> ceq c "-" = false -> stops c i32.
Proof.
  intros Hc H1 H2 x s. unfold i32. destruct x as [|a x]; cbn [app]; [rewrite H1, H2, Hc; reflexivity|].
  assert (G : forall pos y, (match y ++ c :: s with c0 :: _ => match digit c0 with Some _ => signed_from pos 0 (y ++ c :: s) | None => None end | [] => None end) =
    match match y with c0 :: _ => match digit c0 with Some _ => signed_from pos 0 y | None => None end | [] => None end with Some (a, z) => Some (a, z ++ c :: s) | None => None end).
  { intros pos [|b y]; cbn [app]; [rewrite Hc; reflexivity|]. destruct (digit b); [|reflexivity]. apply (signed_stop c s pos Hc (b :: y)). }
  destruct (ceq a "+"); [apply G|]. destruct (ceq a "-"); [apply G|]. apply (G true (a :: x)).
Qed.
Lemma i32_leaves : leaves i32.
Proof.
  intros x a y. unfold i32.
  assert (G : forall pos r, (match r with c0 :: _ => match digit c0 with Some _ => signed_from pos 0 r | None => None end | [] => None end) = Some (a, y) -> exists z, r = z ++ y).
  { intros pos [|b r]; [discriminate|]. destruct (digit b); [|discriminate]. apply signed_leaves. }
  destruct x as [|c x]; [discriminate|].
  destruct (ceq c "+"); [intros H; apply G in H as [z ->]; exists (c :: z); reflexivity|].
  destruct (ceq c "-"); [intros H; apply G in H as [z ->]; exists (c :: z); reflexivity|]. apply (G true (c :: x)).
Qed.
Lemma count_stop c {A} (p : parser A) n : stops c p -> stops c (count p n).
Proof.
  intros Hp. induction n as [|n IH]; intros x s; cbn [count]; [reflexivity|].
  rewrite Hp. destruct (p x) as [[a y]|]; [|reflexivity]. rewrite IH. destruct (count p n y) as [[l z]|]; reflexivity.
Qed.
Lemma count_leaves {A} (p : parser A) n : leaves p -> leaves (count p n).
Proof.
  intros Hp. induction n as [|n IH]; intros x a y; cbn [count]; [intros H; injection H as _ <-; exists []; reflexivity|].
  destruct (p x) as [[b x']|] eqn:E; [|discriminate]. apply Hp in E as [z ->].
  destruct (count p n x') as [[l z']|] eqn:E'; [|discriminate]. intros H. injection H as _ <-. apply IH in E' as [z2 ->].
  exists (z ++ z2). apply app_assoc.
Qed.
Lemma count_any_stop c n : stops c any_entry -> forall x s, count_any n (x ++ c :: s) = match count_any n x with Some y => Some (y ++ c :: s) | None => None end.
Proof.
  intros Hp. induction n as [|n IH]; intros x s; cbn [count_any]; [reflexivity|].
  rewrite Hp. destruct (any_entry x) as [[a y]|]; [|reflexivity]. apply IH.
Qed.
Lemma count_any_leaves n : forall x y, count_any n x = Some y -> exists z, x = z ++ y.
Proof.
  induction n as [|n IH]; intros x y; cbn [count_any]; [intros H; injection H as <-; exists []; reflexivity|].
  destruct (any_entry x) as [[a x']|] eqn:E; [|discriminate]. apply (preceded1_leaves _ non_space_leaves) in E as [z ->].
  intros H. apply IH in H as [z' ->]. exists (z ++ z'). apply app_assoc.
Qed.
End Lines.

(** *** HepMC: the footer after a record changes nothing *)
Lemma neat_cut (s : text) : full_line s -> exists x s', s = x ++ NL :: s' /\ ~ In NL x /\ (s' = [] \/ full_line s').
Proof.
  intros (a & c & -> & Hc).
  destruct (find [NL] (a ++ [c; NL])) as [n|] eqn:F.
  2:{ apply find_char_none in F. exfalso. apply F. apply in_or_app. right. right. left. reflexivity. }
  apply find_char_some in F as (x & s' & E & _ & Hx). exists x, s'. split; [exact E|]. split; [exact Hx|].
  destruct s' as [|d s' _] using rev_ind; [left; reflexivity|]. right.
  replace (a ++ [c; NL]) with ((a ++ [c]) ++ [NL]) in E by (rewrite <- app_assoc; reflexivity).
  replace (x ++ NL :: s' ++ [d]) with ((x ++ NL :: s') ++ [d]) in E by (rewrite <- app_assoc; reflexivity).
  apply app_inj_tail in E as [E <-].
  destruct s' as [|e s' _] using rev_ind.
  - exfalso. apply app_inj_tail in E as [_ ->]. apply Hc. left. exact newline_ws.
  - replace (x ++ NL :: s' ++ [e]) with ((x ++ NL :: s') ++ [e]) in E by (rewrite <- app_assoc; reflexivity).
    apply app_inj_tail in E as [_ <-]. exists s', c. split; [rewrite <- app_assoc; reflexivity|exact Hc].
Qed.

Section HepMCFooter.
Context (N : NumOps) (D : N -> Prop) (double : parser N) (show : N -> text) (sort : sorter) (mw : bool).
Hypothesis HT : number_text N D double show.

Lemma double_stop c : ~ number_char c -> stops c double.
Proof. intros Hc x s. apply (nt_local _ _ _ _ HT). exact Hc. Qed.
Lemma double_leaves : leaves double.
Proof. intros x a y H. apply (nt_consumes _ _ _ _ HT) in H as (p & -> & _). eauto. Qed.
Lemma nl_number : ~ number_char NL.
Proof. intros H. exact (number_char_not_ws _ H newline_ws). Qed.

Lemma any_stop : stops NL any_entry. Proof. apply preceded1_stop; [reflexivity|]. apply non_space_stop. reflexivity. Qed.
Lemma u32e_stop : stops NL u32_entry. Proof. apply preceded1_stop; [reflexivity|]. apply u32_stop. reflexivity. Qed.
Lemma i32e_stop : stops NL i32_entry. Proof. apply preceded1_stop; [reflexivity|]. apply i32_stop; reflexivity. Qed.
Lemma de_stop : stops NL (double_entry double). Proof. apply preceded1_stop; [reflexivity|]. apply double_stop, nl_number. Qed.
Lemma any_leaves : leaves any_entry. Proof. apply preceded1_leaves, non_space_leaves. Qed.
Lemma u32e_leaves : leaves u32_entry. Proof. apply preceded1_leaves, u32_leaves. Qed.
Lemma i32e_leaves : leaves i32_entry. Proof. apply preceded1_leaves, i32_leaves. Qed.
Lemma de_leaves : leaves (double_entry double). Proof. apply preceded1_leaves, double_leaves. Qed.

Lemma particle_stop b c x s : parse_particle_line double ((c :: x) ++ NL :: s) b =
  bind (parse_particle_line double (c :: x) b) (fun '(a, y) => Ok (a, y ++ NL :: s)).
Proof.
  unfold parse_particle_line. cbn [tl app].
  rewrite any_stop. destruct (any_entry x) as [[? r0]|]; [|reflexivity]. cbn [or_err bind].
  rewrite i32e_stop. destruct (i32_entry r0) as [[id r1]|]; [|reflexivity]. cbn [or_err bind].
  rewrite de_stop. destruct (double_entry double r1) as [[p1 r2]|]; [|reflexivity]. cbn [or_err bind].
  rewrite de_stop. destruct (double_entry double r2) as [[p2 r3]|]; [|reflexivity]. cbn [or_err bind].
  rewrite de_stop. destruct (double_entry double r3) as [[p3 r4]|]; [|reflexivity]. cbn [or_err bind].
  rewrite de_stop. destruct (double_entry double r4) as [[p4 r5]|]; [|reflexivity]. cbn [or_err bind].
  rewrite any_stop. destruct (any_entry r5) as [[? r6]|]; [|reflexivity]. cbn [or_err bind].
  rewrite i32e_stop. destruct (i32_entry r6) as [[st r7]|]; [|reflexivity]. cbn [or_err bind].
  destruct (negb (st =? 1)%Z); reflexivity.
Qed.
Lemma particle_leaves b c x a y : parse_particle_line double (c :: x) b = Ok (a, y) -> exists z, x = z ++ y.
Proof.
  unfold parse_particle_line. cbn [tl].
  intros H. destruct (any_entry x) as [[? r0]|] eqn:E0; [|discriminate]. cbn [or_err bind] in H.
  destruct (i32_entry r0) as [[id r1]|] eqn:E1; [|discriminate]. cbn [or_err bind] in H.
  destruct (double_entry double r1) as [[p1 r2]|] eqn:E2; [|discriminate]. cbn [or_err bind] in H.
  destruct (double_entry double r2) as [[p2 r3]|] eqn:E3; [|discriminate]. cbn [or_err bind] in H.
  destruct (double_entry double r3) as [[p3 r4]|] eqn:E4; [|discriminate]. cbn [or_err bind] in H.
  destruct (double_entry double r4) as [[p4 r5]|] eqn:E5; [|discriminate]. cbn [or_err bind] in H.
  destruct (any_entry r5) as [[? r6]|] eqn:E6; [|discriminate]. cbn [or_err bind] in H.
  destruct (i32_entry r6) as [[st r7]|] eqn:E7; [|discriminate]. cbn [or_err bind] in H.
  assert (r7 = y) as -> by (destruct (negb (st =? 1)%Z); injection H; auto).
  apply any_leaves in E0 as [z0 ->]. apply i32e_leaves in E1 as [z1 ->]. apply de_leaves in E2 as [z2 ->].
  apply de_leaves in E3 as [z3 ->]. apply de_leaves in E4 as [z4 ->]. apply de_leaves in E5 as [z5 ->].
  apply any_leaves in E6 as [z6 ->]. apply i32e_leaves in E7 as [z7 ->].
  exists (z0 ++ z1 ++ z2 ++ z3 ++ z4 ++ z5 ++ z6 ++ z7). rewrite <- !app_assoc. reflexivity.
Qed.
Lemma units_stop c x s : parse_units_line ((c :: x) ++ NL :: s) = bind (parse_units_line (c :: x)) (fun '(a, y) => Ok (a, y ++ NL :: s)).
Proof.
  unfold parse_units_line. cbn [tl app]. rewrite any_stop. destruct (any_entry x) as [[e y]|]; [|reflexivity]. cbn.
  repeat destruct (list_eq_dec ascii_dec e _); reflexivity.
Qed.
Lemma units_leaves c x a y : parse_units_line (c :: x) = Ok (a, y) -> exists z, x = z ++ y.
Proof.
  unfold parse_units_line. cbn [tl]. destruct (any_entry x) as [[e r]|] eqn:E; [|discriminate]. cbn.
  apply any_leaves in E. repeat destruct (list_eq_dec ascii_dec e _); intros H; try discriminate; injection H as _ <-; exact E.
Qed.

Context (hl ws : text) (Hhl : ~ In NL hl) (Hws : Forall white ws).
Let t : text := "H"%char :: hl ++ ws.

Lemma parse_tail W f u b : length t <= f -> parse_lines double f mw [] W t u b = Ok (u, b).
Proof.
  intros Hf. destruct (find [NL] t) as [n|] eqn:F.
  - pose proof F as F'. apply find_char_some in F as (a & r & E & <- & Ha).
    assert (Hr : Forall white r).
    { unfold t in E. destruct a as [|a0 a]; [discriminate|]. cbn in E. injection E as <- E.
      destruct (app_split_mid _ _ _ _ E) as [(s & Hs & Hq)|(s & Hs & Hq)].
      - destruct s as [|x s]; cbn in Hq.
        + rewrite <- Hq in Hws. inversion Hws; assumption.
        + injection Hq as <- _. exfalso. apply Hhl. rewrite Hs. apply in_or_app. right. left. reflexivity.
      - rewrite Hq in Hws. rewrite Forall_app in Hws. destruct Hws as [_ H]. inversion H; assumption. }
    destruct f as [|f]; [cbn in Hf; lia|]. cbn [parse_lines]. rewrite F'. rewrite E.
    replace (skipn (length a + 1) (a ++ NL :: r)) with r.
    2:{ replace (a ++ NL :: r) with ((a ++ [NL]) ++ r) by (rewrite <- app_assoc; reflexivity).
        rewrite skipn_app, app_length. cbn. rewrite Nat.sub_diag. rewrite skipn_all2; [reflexivity|]. rewrite app_length. cbn. lia. }
    assert (Hl : length r <= f) by (rewrite E in Hf; rewrite app_length in Hf; cbn in Hf; lia).
    destruct r as [|c r]; [apply parse_lines_white; [constructor|exact Hl]|].
    inversion Hr as [|? ? Hc Hr']; subst.
    assert (Hcw : is_white c = true) by (apply is_white_iff; exact Hc).
    assert (G : forall d, is_white d = false -> ceq c d = false).
    { intros d Hd. apply ceq_false. intros ->. congruence. }
    rewrite !G by reflexivity. rewrite andb_false_r. cbn [orb].
    replace (forallb is_white (c :: r)) with true; [apply parse_lines_white; assumption|].
    symmetry. apply forallb_forall. intros x Hx. apply is_white_iff. rewrite Forall_forall in Hr. apply Hr. exact Hx.
  - destruct f; cbn [parse_lines]; rewrite F; reflexivity.
Qed.

Lemma lines_footer W : forall n s, length s <= n -> (s = [] \/ full_line s) -> forall y f f' u b, ~ In NL y ->
  length (y ++ NL :: s) <= f -> length (y ++ NL :: s ++ t) <= f' ->
  parse_lines double f' mw [] W (y ++ NL :: s ++ t) u b = parse_lines double f mw [] W (y ++ NL :: s) u b.
Proof.
  induction n as [|n IH]; intros s Hn Hs y f f' u b Hy Hf Hf'.
  all: destruct f as [|f]; [rewrite app_length in Hf; cbn in Hf; lia|].
  all: destruct f' as [|f']; [rewrite app_length in Hf'; cbn in Hf'; lia|].
  all: cbn [parse_lines]; rewrite !find_char by exact Hy.
  all: replace (skipn (length y + 1) (y ++ NL :: s ++ t)) with (s ++ t)
    by (replace (y ++ NL :: s ++ t) with ((y ++ [NL]) ++ s ++ t) by (rewrite <- app_assoc; reflexivity);
        rewrite skipn_app, app_length; cbn [length]; rewrite Nat.sub_diag, skipn_all2; [reflexivity|rewrite app_length; cbn; lia]).
  all: replace (skipn (length y + 1) (y ++ NL :: s)) with s
    by (replace (y ++ NL :: s) with ((y ++ [NL]) ++ s) by (rewrite <- app_assoc; reflexivity);
        rewrite skipn_app, app_length; cbn [length]; rewrite Nat.sub_diag, skipn_all2; [reflexivity|rewrite app_length; cbn; lia]).
  all: assert (Hlt : length (s ++ t) <= f') by (rewrite app_length in Hf'; cbn [length] in Hf'; lia).
  all: assert (Hlf : length s <= f) by (rewrite app_length in Hf; cbn [length] in Hf; lia).
  all: destruct Hs as [->|Hs].
  1, 3: cbn [app] in *; unfold t in Hlt |- * at 1; fold t in Hlt |- *; cbn [ceq]; change (ceq "H" "V") with false; change (ceq "H" "F") with false; change (ceq "H" "H") with true; cbn [orb].
  1, 2: transitivity (Ok (u, b)); [apply parse_tail; exact Hlt|destruct f; reflexivity].
  { destruct Hs as (a & c & -> & _). rewrite app_length in Hn. cbn in Hn. lia. }
  assert (Hnw : forallb is_white s = false).
  { destruct Hs as (a & c & -> & Hc). rewrite forallb_app. cbn [forallb]. apply is_white_false in Hc. rewrite Hc. cbn. apply andb_false_r. }
  destruct (neat_cut s Hs) as (x & s' & Es & Hx & Hs').
  assert (Hn' : length s' <= n) by (rewrite Es, app_length in Hn; cbn in Hn; lia).
  destruct x as [|c x].
  - (* a blank line *)
    rewrite Es in *. cbn [app] in *.
    change (ceq NL "V") with false. change (ceq NL "F") with false. change (ceq NL "H") with false. change (ceq NL "C") with false.
    change (ceq NL "N") with false. change (ceq NL "P") with false. change (ceq NL "U") with false. rewrite andb_false_r. cbn [orb].
    rewrite Hnw. replace (forallb is_white (NL :: s' ++ t)) with false; [reflexivity|].
    change (NL :: s' ++ t) with ((NL :: s') ++ t). rewrite forallb_app, Hnw. reflexivity.
  - assert (Hx' : ~ In NL x) by (intros H; apply Hx; right; exact H).
    assert (Hz : forall z1 z2 : text, x = z1 ++ z2 -> ~ In NL z2) by (intros z1 z2 -> H; apply Hx'; apply in_or_app; right; exact H).
    assert (Et : s ++ t = (c :: x) ++ NL :: s' ++ t) by (rewrite Es, <- app_assoc; reflexivity).
    assert (Hl1 : length ((c :: x) ++ NL :: s' ++ t) <= f') by (rewrite <- Et; exact Hlt).
    assert (Hl2 : length ((c :: x) ++ NL :: s') <= f) by (rewrite <- Es; exact Hlf).
    assert (Hwt : forallb is_white (s ++ t) = false) by (rewrite forallb_app, Hnw; reflexivity).
    rewrite Et in *. rewrite Es in *. cbn [app].
    assert (Step : forall y2 u2 b2, (exists z, x = z ++ y2) ->
      parse_lines double f' mw [] W (y2 ++ NL :: s' ++ t) u2 b2 = parse_lines double f mw [] W (y2 ++ NL :: s') u2 b2).
    { intros y2 u2 b2 [z Ez]. apply IH; [exact Hn'|exact Hs'|eapply Hz; exact Ez| |].
      - rewrite Ez in Hl2. clear -Hl2. cbn [app length] in Hl2. rewrite !app_length in *. cbn [length] in *. lia.
      - rewrite Ez in Hl1. clear -Hl1. cbn [app length] in Hl1. rewrite !app_length in *. cbn [length] in *. rewrite !app_length in *. lia. }
    destruct (ceq c "V" || ceq c "F" || ceq c "H" || ceq c "C" || negb mw && ceq c "N").
    { apply (IH s' Hn' Hs' (c :: x)); assumption. }
    destruct (ceq c "N"). 
    { cbn [parse_weight_names_line bind]. apply (IH s' Hn' Hs' (c :: x)); assumption. }
    destruct (ceq c "P").
    { pose proof (particle_stop b c x (s' ++ t)) as P1. pose proof (particle_stop b c x s') as P2. cbn [app] in P1, P2. rewrite P1, P2.
      destruct (parse_particle_line double (c :: x) b) as [[b2 y2]| |] eqn:Ep; [|reflexivity|reflexivity]. cbn [bind].
      apply Step. eapply particle_leaves. exact Ep. }
    destruct (ceq c "U").
    { pose proof (units_stop c x (s' ++ t)) as P1. pose proof (units_stop c x s') as P2. cbn [app] in P1, P2. rewrite P1, P2.
      destruct (parse_units_line (c :: x)) as [[u2 y2]| |] eqn:Ep; [|reflexivity|reflexivity]. cbn [bind].
      apply Step. eapply units_leaves. exact Ep. }
    cbn [app] in Hnw, Hwt. rewrite Hnw, Hwt. reflexivity.
Qed.

Lemma weights_stop c x s : extract_weights double mw ((c :: x) ++ NL :: s) =
  bind (extract_weights double mw (c :: x)) (fun '(w, l, y) => Ok (w, l, y ++ NL :: s)).
Proof.
  unfold extract_weights. cbn [app starts_with_E]. destruct (negb (ceq c "E")); [reflexivity|].
  unfold non_weight_entries. cbn [tl]. rewrite count_any_stop by apply any_stop.
  destruct (count_any 10 x) as [y|]; [|reflexivity]. cbn [app]. rewrite u32e_stop. destruct (u32_entry y) as [[nr y2]|]; [|reflexivity].
  rewrite count_any_stop by apply any_stop. destruct (count_any (N.to_nat nr) y2) as [y3|]; [|reflexivity]. cbn [or_err bind].
  rewrite u32e_stop. destruct (u32_entry y3) as [[nw y4]|]; [|reflexivity]. cbn [or_err bind]. destruct mw.
  - rewrite (count_stop NL _ _ de_stop). destruct (count (double_entry double) (N.to_nat nw) y4) as [[l y5]|]; [|reflexivity]. cbn. destruct l; reflexivity.
  - rewrite de_stop. destruct (double_entry double y4) as [[w y5]|]; reflexivity.
Qed.
Lemma weights_leaves c x w l y : extract_weights double mw (c :: x) = Ok (w, l, y) -> exists z, x = z ++ y.
Proof.
  unfold extract_weights. cbn [starts_with_E]. destruct (negb (ceq c "E")); [discriminate|].
  unfold non_weight_entries. cbn [tl].
  destruct (count_any 10 x) as [y1|] eqn:E1; [|discriminate]. destruct (u32_entry y1) as [[nr y2]|] eqn:E2; [|discriminate].
  destruct (count_any (N.to_nat nr) y2) as [y3|] eqn:E3; [|discriminate]. cbn [or_err bind].
  destruct (u32_entry y3) as [[nw y4]|] eqn:E4; [|discriminate]. cbn [or_err bind].
  apply count_any_leaves in E1 as [z1 ->]. apply u32e_leaves in E2 as [z2 ->]. apply count_any_leaves in E3 as [z3 ->]. apply u32e_leaves in E4 as [z4 ->].
  destruct mw.
  - destruct (count (double_entry double) (N.to_nat nw) y4) as [[l' y5]|] eqn:E5; [|discriminate]. cbn.
    apply (count_leaves _ _ de_leaves) in E5 as [z5 ->]. destruct l'; [discriminate|]. intros H; injection H as _ _ <-.
    exists (z1 ++ z2 ++ z3 ++ z4 ++ z5). rewrite <- !app_assoc. reflexivity.
  - destruct (double_entry double y4) as [[w' y5]|] eqn:E5; [|discriminate]. cbn.
    apply de_leaves in E5 as [z5 ->]. intros H; injection H as _ _ <-.
    exists (z1 ++ z2 ++ z3 ++ z4 ++ z5). rewrite <- !app_assoc. reflexivity.
Qed.

Lemma parse_footer r : full_line r -> parse_hepmc double mw sort [] (r ++ t) = parse_hepmc double mw sort [] r.
Proof.
  intros Hr. destruct (neat_cut r Hr) as (x & s & -> & Hx & Hs). destruct x as [|c x]; [reflexivity|].
  rewrite <- app_assoc. cbn [app]. unfold parse_hepmc.
  pose proof (weights_stop c x (s ++ t)) as P1. pose proof (weights_stop c x s) as P2. cbn [app] in P1, P2. rewrite P1, P2.
  destruct (extract_weights double mw (c :: x)) as [[[w l] y]| |] eqn:E; [|reflexivity|reflexivity]. cbn [bind].
  apply weights_leaves in E as [z ->].
  rewrite (lines_footer l (length s) s (le_n _) Hs y (length (y ++ NL :: s))); [reflexivity| |apply le_n|apply le_n].
  intros H. apply Hx. right. apply in_or_app. right. exact H.
Qed.
End HepMCFooter.
