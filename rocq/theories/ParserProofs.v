(** What the parsers of ModelText recognise. *)
From Verif Require Import Base BaseProofs ModelText SpecText TextProofs.
From Coq Require Import Lia.

Lemma span_spec p : forall t a b, span p t = (a, b) ->
  t = a ++ b /\ Forall (fun c => p c = true) a /\ heads (fun c => p c = false) b.
Proof.
  induction t as [|c t IH]; intros a b; cbn.
  - intros H; injection H as <- <-. cbn. auto.
  - destruct (p c) eqn:E.
    + destruct (span p t) as [x y] eqn:S. intros H; injection H as <- <-.
      destruct (IH _ _ eq_refl) as (-> & Ha & Hb). split; [reflexivity|]. split; [constructor; auto|exact Hb].
    + intros H; injection H as <- <-. split; [reflexivity|]. split; [constructor|]. exact E.
Qed.
Lemma span_app p a b : Forall (fun c => p c = true) a -> heads (fun c => p c = false) b -> span p (a ++ b) = (a, b).
Proof.
  intros Ha Hb. induction Ha as [|c a Hc Ha IH]; cbn.
  - destruct b as [|c b]; [reflexivity|]. cbn in Hb. cbn. rewrite Hb. reflexivity.
  - rewrite Hc, IH. reflexivity.
Qed.

Lemma is_space_blank c : is_space c = true <-> blank c.
Proof. unfold is_space, blank. rewrite orb_true_iff, !ceq_true. reflexivity. Qed.
Lemma is_ws_whitespace c : is_ws c = true <-> whitespace c.
Proof. unfold is_ws, whitespace, blank. rewrite !orb_true_iff, !ceq_true. unfold SP, TAB, NL, FF, CR. tauto. Qed.
Lemma is_space_false c : is_space c = false <-> ~ blank c.
Proof. rewrite <- is_space_blank. destruct (is_space c); split; congruence. Qed.
Lemma is_ws_false c : is_ws c = false <-> ~ whitespace c.
Proof. rewrite <- is_ws_whitespace. destruct (is_ws c); split; congruence. Qed.
Lemma blank_ws c : blank c -> whitespace c.
Proof. intros H. left. exact H. Qed.
Lemma newline_ws : whitespace NL.
Proof. right; left; reflexivity. Qed.
Lemma newline_not_blank : ~ blank NL.
Proof. intros [H|H]; discriminate. Qed.

Lemma decimal_not_ws c : decimal_digit c -> ~ whitespace c.
Proof. unfold decimal_digit, whitespace, blank. intros H [[->| ->]|[->|[->| ->]]]; cbn in H; lia. Qed.
Lemma number_char_not_ws c : number_char c -> ~ whitespace c.
Proof.
  unfold number_char, decimal_digit. intros H [[->| ->]|[->|[->| ->]]]; cbn in H;
    repeat match goal with H : _ \/ _ |- _ => destruct H as [H|H] end; try lia; discriminate.
Qed.
Lemma ws_not_number c : whitespace c -> ~ number_char c.
Proof. intros H H'. exact (number_char_not_ws c H' H). Qed.
Lemma ws_not_decimal c : whitespace c -> ~ decimal_digit c.
Proof. intros H H'. exact (decimal_not_ws c H' H). Qed.

Lemma heads_impl (P Q : ascii -> Prop) t : (forall c, P c -> Q c) -> heads P t -> heads Q t.
Proof. intros H. destruct t; cbn; auto. Qed.
Lemma heads_app (P : ascii -> Prop) a b : a <> [] -> heads P a -> heads P (a ++ b).
Proof. destruct a; [congruence|]. auto. Qed.
Lemma heads_app_l (P : ascii -> Prop) a b : a <> [] -> heads P (a ++ b) -> heads P a.
Proof. destruct a; [congruence|]. auto. Qed.
Lemma heads_app_inv (P : ascii -> Prop) a b : heads P a -> heads P b -> heads P (a ++ b).
Proof. destruct a; cbn; auto. Qed.
Lemma blanks_heads s t : blanks s -> heads blank (s ++ t).
Proof. intros [Hs Hb]. destruct s; [congruence|]. inversion Hb; auto. Qed.
Lemma word_heads (P : ascii -> Prop) e t : word e -> (forall c, ~ whitespace c -> P c) -> heads P (e ++ t).
Proof. intros [He Hw] H. destruct e; [congruence|]. inversion Hw; subst. apply H. auto. Qed.

Lemma Forall_space s : Forall blank s <-> Forall (fun c => is_space c = true) s.
Proof. split; apply Forall_impl; intros c; apply is_space_blank. Qed.

(** *** space1 *)
Lemma space1_some t r : space1 t = Some r -> exists s, t = s ++ r /\ blanks s /\ heads (fun c => ~ blank c) r.
Proof.
  unfold space1. destruct (span is_space t) as [a b] eqn:E. apply span_spec in E as (-> & Ha & Hb).
  destruct a as [|c a]; [discriminate|]. intros H; injection H as <-.
  exists (c :: a). split; [reflexivity|]. split; [split; [discriminate|apply Forall_space; exact Ha]|].
  eapply heads_impl; [|exact Hb]. intros x. apply is_space_false.
Qed.
Lemma space1_app s r : blanks s -> heads (fun c => ~ blank c) r -> space1 (s ++ r) = Some r.
Proof.
  intros [Hs Hb] Hr. unfold space1. rewrite span_app.
  - destruct s; [congruence|reflexivity].
  - apply Forall_space. exact Hb.
  - eapply heads_impl; [|exact Hr]. intros x. apply is_space_false.
Qed.

(** *** any_entry *)
Lemma non_space_some t e r : non_space t = Some (e, r) -> t = e ++ r /\ word e /\ heads whitespace r.
Proof.
  unfold non_space. destruct (span _ t) as [a b] eqn:E. apply span_spec in E as (-> & Ha & Hb).
  destruct a as [|c a]; [discriminate|]. intros H; injection H as <- <-.
  split; [reflexivity|]. split.
  - split; [discriminate|]. eapply Forall_impl; [|exact Ha]. cbn. intros x Hx. apply is_ws_false. destruct (is_ws x); [discriminate|reflexivity].
  - eapply heads_impl; [|exact Hb]. cbn. intros x Hx. apply is_ws_whitespace. destruct (is_ws x); [reflexivity|discriminate].
Qed.
Lemma non_space_app e r : word e -> heads whitespace r -> non_space (e ++ r) = Some (e, r).
Proof.
  intros [He Hw] Hr. unfold non_space. rewrite span_app.
  - destruct e; [congruence|reflexivity].
  - eapply Forall_impl; [|exact Hw]. cbn. intros x Hx. apply is_ws_false in Hx. rewrite Hx. reflexivity.
  - eapply heads_impl; [|exact Hr]. cbn. intros x Hx. apply is_ws_whitespace in Hx. rewrite Hx. reflexivity.
Qed.
Lemma any_entry_some t e r : any_entry t = Some (e, r) ->
  exists s, t = s ++ e ++ r /\ blanks s /\ word e /\ heads whitespace r.
Proof.
  unfold any_entry, preceded1. destruct (space1 t) as [t'|] eqn:E; [|discriminate].
  apply space1_some in E as (s & -> & Hs & _). intros H. apply non_space_some in H as (-> & He & Hr).
  exists s. auto.
Qed.
Lemma any_entry_app s e r : blanks s -> word e -> heads whitespace r -> any_entry (s ++ e ++ r) = Some (e, r).
Proof.
  intros Hs He Hr. unfold any_entry, preceded1. rewrite space1_app; [apply non_space_app; auto|exact Hs|].
  apply word_heads; [exact He|]. intros c Hc Hb. apply Hc. left. exact Hb.
Qed.

(** *** count_any *)
Lemma count_any_some n : forall t r, count_any n t = Some r ->
  (n = 0 \/ heads blank r) -> exists p, t = p ++ r /\ entries n p.
Proof.
  induction n as [|n IH]; intros t r; cbn.
  - intros H _; injection H as <-. exists []. split; [reflexivity|constructor].
  - destruct (any_entry t) as [[e t']|] eqn:E; [|discriminate]. intros H Hr.
    apply any_entry_some in E as (s & -> & Hs & He & Ht').
    destruct Hr as [?|Hr]; [discriminate|].
    destruct (IH _ _ H (or_intror Hr)) as (p & -> & Hp).
    exists (s ++ e ++ p). rewrite <- !app_assoc. split; [reflexivity|].
    constructor; auto. inversion Hp; subst; [exact I|]. apply blanks_heads. auto.
Qed.
Lemma count_any_app n p : entries n p -> forall r, heads whitespace r -> count_any n (p ++ r) = Some r.
Proof.
  induction 1 as [|n s e t Hs He Ht Hn IH]; intros r Hr; cbn; [reflexivity|].
  rewrite <- !app_assoc. rewrite any_entry_app; [apply IH; exact Hr|exact Hs|exact He|].
  destruct t as [|c t]; [exact Hr|]. cbn in Ht |- *. left. exact Ht.
Qed.

(** *** u32 *)
Lemma digit_some c d : digit c = Some d -> decimal_digit c /\ d = (N_of_ascii c - 48)%N.
Proof.
  unfold digit, decimal_digit. destruct (_ && _) eqn:E; [|discriminate]. apply andb_true_iff in E as [E1 E2].
  apply N.leb_le in E1, E2. intros H; injection H as <-. split; [lia|reflexivity].
Qed.
Lemma digit_of c : decimal_digit c -> digit c = Some (N_of_ascii c - 48)%N.
Proof.
  unfold digit, decimal_digit. intros [H1 H2]. apply N.leb_le in H1, H2. rewrite H1, H2. reflexivity.
Qed.
Lemma digit_none c : digit c = None <-> ~ decimal_digit c.
Proof.
  split.
  - intros H H'. rewrite (digit_of _ H') in H. discriminate.
  - intros H. destruct (digit c) eqn:E; [|reflexivity]. apply digit_some in E as [E _]. contradiction.
Qed.

Definition dec_from (v : N) (ds : text) : N := fold_left (fun v c => (v * 10 + (N_of_ascii c - 48))%N) ds v.
Lemma dec_from_le ds : forall v, (v <= dec_from v ds)%N.
Proof.
  induction ds as [|c ds IH]; intros v; cbn; [lia|]. etransitivity; [|apply IH]. lia.
Qed.
Lemma digits_from_app ds : Forall decimal_digit ds -> forall v r, heads (fun c => ~ decimal_digit c) r ->
  (dec_from v ds < 2 ^ 32)%N -> digits_from v (ds ++ r) = Some (dec_from v ds, r).
Proof.
  induction 1 as [|c ds Hc Hds IH]; intros v r Hr Hb; cbn [app digits_from].
  - destruct r as [|c r]; [reflexivity|]. cbn in Hr |- *. apply digit_none in Hr. rewrite Hr. reflexivity.
  - rewrite (digit_of _ Hc). cbn in Hb |- *.
    pose proof (dec_from_le ds (v * 10 + (N_of_ascii c - 48))) as Hle. unfold dec_from in *.
    replace (v * 10 + (N_of_ascii c - 48) <? 4294967296)%N with true by (symmetry; apply N.ltb_lt; lia).
    apply IH; auto.
Qed.
Lemma digits_from_some : forall t v x r, digits_from v t = Some (x, r) -> (v < 2 ^ 32)%N ->
  exists ds, t = ds ++ r /\ Forall decimal_digit ds /\ x = dec_from v ds /\ (x < 2 ^ 32)%N /\ heads (fun c => ~ decimal_digit c) r.
Proof.
  induction t as [|c t IH]; intros v x r; cbn [digits_from].
  - intros H Hv; injection H as <- <-. exists []. repeat split; auto.
  - destruct (digit c) as [d|] eqn:E.
    + apply digit_some in E as [Hc ->]. destruct (_ <? _)%N eqn:B; [|discriminate]. apply N.ltb_lt in B.
      intros H _. destruct (IH _ _ _ H B) as (ds & -> & Hds & -> & Hx & Hr).
      exists (c :: ds). repeat split; auto.
    + intros H Hv; injection H as <- <-. exists []. repeat split; auto. cbn. apply digit_none. exact E.
Qed.

Lemma u32_entry_some t v r : u32_entry t = Some (v, r) ->
  exists p, t = p ++ r /\ number_entry v p /\ (v < 2 ^ 32)%N /\ heads (fun c => ~ decimal_digit c) r.
Proof.
  unfold u32_entry, preceded1. destruct (space1 t) as [t'|] eqn:E; [|discriminate].
  apply space1_some in E as (s & -> & Hs & _). unfold u32. destruct t' as [|c t']; [discriminate|].
  destruct (digit c) as [d|] eqn:Ed; [|discriminate]. intros H.
  destruct (digits_from_some _ _ _ _ H) as (ds & Ht & Hds & Hv & Hb & Hr); [reflexivity|].
  rewrite Ht. exists (s ++ ds). rewrite app_assoc. split; [reflexivity|]. split; [|auto].
  exists s, ds. split; [reflexivity|]. split; [exact Hs|]. split; [|auto].
  intros ->. cbn in Ht. subst r. cbn in Hr. apply digit_none in Hr. congruence.
Qed.
Lemma u32_entry_app p v r : number_entry v p -> (v < 2 ^ 32)%N -> heads (fun c => ~ decimal_digit c) r ->
  u32_entry (p ++ r) = Some (v, r).
Proof.
  intros (s & ds & -> & Hs & Hne & Hds & Hv) Hb Hr. unfold u32_entry, preceded1. rewrite <- app_assoc.
  rewrite space1_app; [|exact Hs|].
  - unfold u32. destruct ds as [|c ds]; [congruence|]. cbn [app]. inversion Hds; subst.
    rewrite (digit_of _ H1). change (c :: ds ++ r) with ((c :: ds) ++ r). apply digits_from_app; auto.
  - destruct ds as [|c ds]; [congruence|]. inversion Hds; subst. cbn. intros Hc. apply (ws_not_decimal c); auto. left. exact Hc.
Qed.
Lemma number_entry_heads v p r : number_entry v p -> heads blank (p ++ r).
Proof. intros (s & ds & -> & Hs & _). rewrite <- app_assoc. apply blanks_heads. exact Hs. Qed.
Lemma entries_heads n p r : entries n p -> heads blank r -> heads blank (p ++ r).
Proof. intros H Hr. inversion H; subst; [exact Hr|]. rewrite <- !app_assoc. apply blanks_heads. auto. Qed.

(** *** numbers *)
Section Numbers.
Context {N : Type} {D : N -> Prop} {double : text -> option (N * text)} {show : N -> text}.
Hypothesis HT : number_text N D double show.

Lemma number_word p : p <> [] -> Forall number_char p -> word p.
Proof. intros Hp H. split; [exact Hp|]. eapply Forall_impl; [|exact H]. intros c. apply number_char_not_ws. Qed.
Lemma show_word w : D w -> word (show w).
Proof. intros H. destruct (nt_show _ _ _ _ HT w H). apply number_word; auto. Qed.

Lemma double_show w rest : D w -> heads (fun c => ~ number_char c) rest -> double (show w ++ rest) = Some (w, rest).
Proof. intros Hw Hr. rewrite (nt_local _ _ _ _ HT) by exact Hr. rewrite (nt_round _ _ _ _ HT) by exact Hw. reflexivity. Qed.

(** an entry that starts with a number *)
Lemma double_entry_some t w r : preceded1 double t = Some (w, r) ->
  exists s p junk post, t = s ++ p ++ junk ++ post /\ r = junk ++ post /\ blanks s /\
    p <> [] /\ Forall number_char p /\ word (p ++ junk) /\ heads whitespace post /\
    Forall (fun c => ~ whitespace c) junk /\ double (p ++ junk) = Some (w, junk).
Proof.
  unfold preceded1. destruct (space1 t) as [t'|] eqn:E; [|discriminate].
  apply space1_some in E as (s & -> & Hs & _). intros H.
  destruct (nt_consumes _ _ _ _ HT _ _ _ H) as (p & -> & Hp & Hpc).
  destruct (span (fun c => negb (is_ws c)) r) as [junk post] eqn:Sp.
  apply span_spec in Sp as (Hr & Hj & Hpost).
  assert (Hj' : Forall (fun c => ~ whitespace c) junk).
  { eapply Forall_impl; [|exact Hj]. cbn. intros c Hc. apply is_ws_false. destruct (is_ws c); [discriminate|reflexivity]. }
  assert (Hpost' : heads whitespace post).
  { eapply heads_impl; [|exact Hpost]. cbn. intros c Hc. apply is_ws_whitespace. destruct (is_ws c); [reflexivity|discriminate]. }
  exists s, p, junk, post. rewrite Hr. split; [reflexivity|]. split; [reflexivity|]. split; [exact Hs|].
  split; [exact Hp|]. split; [exact Hpc|]. split.
  { split; [destruct p; [congruence|discriminate]|]. apply Forall_app. split; [|exact Hj'].
    apply number_word; auto. }
  split; [exact Hpost'|]. split; [exact Hj'|].
  rewrite Hr, app_assoc in H. rewrite (nt_local _ _ _ _ HT) in H.
  - destruct (double (p ++ junk)) as [[w' r']|]; [|discriminate]. injection H as -> H.
    apply app_inv_tail in H as ->. reflexivity.
  - eapply heads_impl; [|exact Hpost']. intros c. apply ws_not_number.
Qed.
Lemma double_entry_app s tok w junk post : blanks s -> word tok -> double tok = Some (w, junk) -> heads whitespace post ->
  preceded1 double (s ++ tok ++ post) = Some (w, junk ++ post).
Proof.
  intros Hs Ht Hd Hp. unfold preceded1. rewrite space1_app; [|exact Hs|].
  - rewrite (nt_local _ _ _ _ HT); [rewrite Hd; reflexivity|]. eapply heads_impl; [|exact Hp]. intros c. apply ws_not_number.
  - apply word_heads; [exact Ht|]. intros c Hc Hb. apply Hc. left. exact Hb.
Qed.
Lemma double_entry_show s w post : blanks s -> D w -> heads whitespace post ->
  preceded1 double (s ++ show w ++ post) = Some (w, post).
Proof.
  intros Hs Hw Hp. exact (double_entry_app s (show w) w [] post Hs (show_word w Hw) (nt_round _ _ _ _ HT w Hw) Hp).
Qed.
End Numbers.
