(** Parsing and rewriting HepMC records. *)
From Verif Require Import Base BaseProofs Num ModelEvent ModelText SpecText SpecFormats SpecHepMC TextProofs ParserProofs ModelHepMC.
From Coq Require Import Lia.

Lemma bind_ok {A B} (r : res A) (f : A -> res B) b : bind r f = Ok b -> exists a, r = Ok a /\ f a = Ok b.
Proof. destruct r; cbn; [eauto|discriminate|discriminate]. Qed.
Lemma or_err_ok {A} (o : option A) e a : or_err o e = Ok a -> o = Some a.
Proof. destruct o; cbn; [congruence|discriminate]. Qed.

Ltac inv_bind H :=
  let a := fresh "x" in let E := fresh "E" in
  apply bind_ok in H; destruct H as (a & E & H);
  try (apply or_err_ok in E).

(** *** The part before the weights *)
Lemma head_spec record r1 nw rest : starts_with_E record = true ->
  non_weight_entries record = Some r1 -> u32_entry r1 = Some (nw, rest) ->
  exists pre, record = pre ++ rest /\ before_weights nw pre.
Proof.
  intros HE Hn Hu. unfold starts_with_E in HE. destruct record as [|c record]; [discriminate|].
  apply ceq_true in HE as ->. unfold non_weight_entries in Hn. cbn [tl] in Hn.
  destruct (count_any 10 record) as [ra|] eqn:Ea; [|discriminate].
  destruct (u32_entry ra) as [[nrandom rb]|] eqn:Eb; [|discriminate].
  apply u32_entry_some in Hu as (pn & -> & Hpn & Hnw & _).
  apply u32_entry_some in Eb as (pr & -> & Hpr & Hnr & _).
  apply count_any_some in Hn as (b & -> & Hb); [|right; eapply number_entry_heads; eauto].
  apply count_any_some in Ea as (a & -> & Ha); [|right; eapply number_entry_heads; eauto].
  exists ("E"%char :: a ++ pr ++ b ++ pn). split; [cbn; rewrite <- !app_assoc; reflexivity|].
  exists a, pr, nrandom, b, pn. auto 10.
Qed.
Lemma head_app pre nw rest : before_weights nw pre -> heads (fun c => ~ decimal_digit c) rest ->
  exists r1, starts_with_E (pre ++ rest) = true /\ non_weight_entries (pre ++ rest) = Some r1 /\
    u32_entry r1 = Some (nw, rest).
Proof.
  intros (a & nr & nrandom & b & nwt & -> & Ha & Hnr & Hnb & Hb & Hnw & Hnwb) Hrest.
  exists (nwt ++ rest). split; [reflexivity|]. split; [|apply u32_entry_app; auto].
  unfold non_weight_entries. cbn [app tl]. rewrite <- !app_assoc.
  rewrite (count_any_app _ _ Ha); [|eapply heads_impl; [exact blank_ws|eapply number_entry_heads; eauto]].
  rewrite (u32_entry_app _ _ _ Hnr Hnb).
  - rewrite (count_any_app _ _ Hb); [reflexivity|]. eapply heads_impl; [exact blank_ws|eapply number_entry_heads; eauto].
  - eapply heads_impl; [intros c Hc; apply ws_not_decimal, blank_ws, Hc|]. eapply entries_heads; [eauto|]. eapply number_entry_heads; eauto.
Qed.
Lemma before_weights_no_newline nw pre : before_weights nw pre -> ~ In NL pre.
Proof.
  assert (Hbl : forall s, blanks s -> ~ In NL s).
  { intros s [_ Hs] Hin. rewrite Forall_forall in Hs. apply newline_not_blank, Hs, Hin. }
  assert (Hwd : forall s, word s -> ~ In NL s).
  { intros s [_ Hs] Hin. rewrite Forall_forall in Hs. exact (Hs _ Hin newline_ws). }
  assert (Hen : forall n p, entries n p -> ~ In NL p).
  { induction 1 as [|n s e t Hs He Ht Hn IH]; [auto|]. rewrite !in_app_iff.
    intros [Hin|[Hin|Hin]]; [exact (Hbl _ Hs Hin)|exact (Hwd _ He Hin)|exact (IH Hin)]. }
  assert (Hnu : forall v p, number_entry v p -> ~ In NL p).
  { intros v p (s & ds & -> & Hs & _ & Hds & _). rewrite in_app_iff. intros [Hin|Hin]; [exact (Hbl _ Hs Hin)|].
    rewrite Forall_forall in Hds. exact (decimal_not_ws _ (Hds _ Hin) newline_ws). }
  intros (a & nr & nrandom & b & nwt & -> & Ha & Hnr & _ & Hb & Hnw & _) [H|Hin]; [discriminate|].
  rewrite !in_app_iff in Hin. destruct Hin as [Hin|[Hin|[Hin|Hin]]];
    [exact (Hen _ _ Ha Hin)|exact (Hnu _ _ Hnr Hin)|exact (Hen _ _ Hb Hin)|exact (Hnu _ _ Hnw Hin)].
Qed.

Section Parse.
Context (N : NumOps) (D : N -> Prop) (double : parser N) (show : N -> text) (sort : sorter).
Hypothesis HT : number_text N D double show.

(** *** Every parser returns a part of its input; most of them stay within the line *)
Definition no_nl (q : text) : Prop := ~ In NL q.
Definition eats {A} (p : parser A) : Prop := forall t a r, p t = Some (a, r) -> exists q, t = q ++ r /\ no_nl q.
Definition shrinks {A} (p : parser A) : Prop := forall t a r, p t = Some (a, r) -> length r <= length t.
Lemma eats_shrinks A (p : parser A) : eats p -> shrinks p.
Proof. intros H t a r E. destruct (H t a r E) as (q & -> & _). rewrite app_length. lia. Qed.
Lemma blanks_no_nl s : blanks s -> no_nl s.
Proof. intros [_ Hs] Hin. rewrite Forall_forall in Hs. apply newline_not_blank, Hs, Hin. Qed.
Lemma words_no_nl s : Forall (fun c => ~ whitespace c) s -> no_nl s.
Proof. intros Hs Hin. rewrite Forall_forall in Hs. exact (Hs _ Hin newline_ws). Qed.
Lemma number_no_nl s : Forall number_char s -> no_nl s.
Proof. intros Hs Hin. rewrite Forall_forall in Hs. exact (number_char_not_ws _ (Hs _ Hin) newline_ws). Qed.
Lemma digits_no_nl s : Forall decimal_digit s -> no_nl s.
Proof. intros Hs Hin. rewrite Forall_forall in Hs. exact (decimal_not_ws _ (Hs _ Hin) newline_ws). Qed.
Lemma app_no_nl a b : no_nl a -> no_nl b -> no_nl (a ++ b).
Proof. unfold no_nl. rewrite in_app_iff. tauto. Qed.
Lemma eats_preceded1 A (p : parser A) : eats p -> eats (preceded1 p).
Proof.
  intros H t a r. unfold preceded1. destruct (space1 t) as [t'|] eqn:E; [|discriminate].
  apply space1_some in E as (s & -> & Hs & _). intros H'. apply H in H' as (q & -> & Hq).
  exists (s ++ q). split; [rewrite app_assoc; reflexivity|]. apply app_no_nl; [apply blanks_no_nl; exact Hs|exact Hq].
Qed.
Lemma shrinks_preceded1 A (p : parser A) : shrinks p -> shrinks (preceded1 p).
Proof.
  intros H t a r. unfold preceded1. destruct (space1 t) as [t'|] eqn:E; [|discriminate].
  apply space1_some in E as (s & -> & Hs & _). intros H'. apply H in H'. rewrite app_length. lia.
Qed.
Lemma any_entry_eats : eats any_entry.
Proof.
  intros t e r H. apply any_entry_some in H as (s & -> & Hs & [_ He] & _). exists (s ++ e).
  split; [rewrite app_assoc; reflexivity|]. apply app_no_nl; [apply blanks_no_nl; exact Hs|apply words_no_nl; exact He].
Qed.
Lemma u32_entry_eats : eats u32_entry.
Proof.
  intros t e r H. apply u32_entry_some in H as (s & -> & (b & ds & -> & Hb & _ & Hd & _) & _). exists (b ++ ds).
  split; [reflexivity|]. apply app_no_nl; [apply blanks_no_nl; exact Hb|apply digits_no_nl; exact Hd].
Qed.
Lemma signed_from_eats pos : forall t v x r, signed_from pos v t = Some (x, r) -> exists q, t = q ++ r /\ no_nl q.
Proof.
  induction t as [|c t IH]; intros v x r; cbn [signed_from].
  - intros H; injection H as _ <-. exists []. split; [reflexivity|]. intros [].
  - destruct (digit c) eqn:Ed; [|intros H; injection H as _ <-; exists []; split; [reflexivity|intros []]].
    apply digit_some in Ed as [Hc _]. destruct (_ && _); [|discriminate].
    intros H. apply IH in H as (q & -> & Hq). exists (c :: q). split; [reflexivity|].
    intros [->|Hin]; [exact (decimal_not_ws _ Hc newline_ws)|exact (Hq Hin)].
Qed.
Lemma i32_eats : eats i32.
Proof.
  intros t x r. unfold i32.
  destruct (match t with [] => (true, t) | c :: t' => if ceq c "+" then (true, t') else if ceq c "-" then (false, t') else (true, t) end) as [pos t1] eqn:E.
  assert (Hl : exists q, t = q ++ t1 /\ no_nl q).
  { destruct t as [|c t]; [injection E as _ <-; exists []; split; [reflexivity|intros []]|].
    destruct (ceq c "+") eqn:Ep; [injection E as _ <-; apply ceq_true in Ep as ->; exists ["+"%char]; split; [reflexivity|intros [H|[]]; discriminate]|].
    destruct (ceq c "-") eqn:Em; injection E as _ <-.
    - apply ceq_true in Em as ->; exists ["-"%char]; split; [reflexivity|intros [H|[]]; discriminate].
    - exists []; split; [reflexivity|intros []]. }
  destruct t1 as [|c t1]; [discriminate|]. destruct (digit c); [|discriminate].
  intros H. apply signed_from_eats in H as (q & Heq & Hq). destruct Hl as (q' & -> & Hq').
  exists (q' ++ q). split; [rewrite Heq, app_assoc; reflexivity|apply app_no_nl; auto].
Qed.
Lemma i32_entry_eats : eats i32_entry.
Proof. apply eats_preceded1, i32_eats. Qed.
Lemma double_entry_eats : eats (double_entry double).
Proof.
  apply eats_preceded1. intros t w r H. apply (nt_consumes _ _ _ _ HT) in H as (p & -> & _ & Hp).
  exists p. split; [reflexivity|apply number_no_nl; exact Hp].
Qed.
Lemma string_entry_len : shrinks string_entry.
Proof.
  apply shrinks_preceded1. intros t a r. unfold quoted. destruct t as [|c t]; [discriminate|].
  destruct (ceq c QUOTE); [|discriminate]. destruct (find [QUOTE] t) as [k|]; [|discriminate].
  intros H; injection H as _ <-. destruct t as [|? t]; cbn [length]; [lia|]. rewrite skipn_length. cbn [length]. lia.
Qed.

Lemma tl_eats (c : ascii) t r : c <> NL -> (exists q, t = q ++ r /\ no_nl q) -> exists q, c :: t = q ++ r /\ no_nl q.
Proof. intros Hc (q & -> & Hq). exists (c :: q). split; [reflexivity|]. intros [->|Hin]; [congruence|exact (Hq Hin)]. Qed.
Lemma eats_trans (t r r' : text) : (exists q, t = q ++ r /\ no_nl q) -> (exists q, r = q ++ r' /\ no_nl q) -> exists q, t = q ++ r' /\ no_nl q.
Proof. intros (q & -> & Hq) (q' & -> & Hq'). exists (q ++ q'). split; [rewrite app_assoc; reflexivity|apply app_no_nl; auto]. Qed.

Lemma units_eats c record u r : c <> NL -> parse_units_line (c :: record) = Ok (u, r) -> exists q, c :: record = q ++ r /\ no_nl q.
Proof.
  unfold parse_units_line. cbn [tl]. intros Hc H. inv_bind H. destruct x as [e rest].
  apply any_entry_eats in E. apply tl_eats; [exact Hc|].
  destruct (list_eq_dec _ _ _); [|destruct (list_eq_dec _ _ _); [|discriminate]]; injection H as _ <-; exact E.
Qed.
Lemma particle_eats c record b b' r : c <> NL -> parse_particle_line double (c :: record) b = Ok (b', r) -> exists q, c :: record = q ++ r /\ no_nl q.
Proof.
  unfold parse_particle_line. cbn [tl]. intros Hc H.
  inv_bind H. destruct x as [? t1]. inv_bind H. destruct x as [? t2]. inv_bind H. destruct x as [? t3].
  inv_bind H. destruct x as [? t4]. inv_bind H. destruct x as [? t5]. inv_bind H. destruct x as [? t6].
  inv_bind H. destruct x as [? t7]. inv_bind H. destruct x as [? t8].
  apply any_entry_eats in E, E5. apply i32_entry_eats in E0, E6. apply double_entry_eats in E1, E2, E3, E4.
  apply tl_eats; [exact Hc|].
  destruct (negb _); injection H as _ <-;
    exact (eats_trans _ _ _ E (eats_trans _ _ _ E0 (eats_trans _ _ _ E1 (eats_trans _ _ _ E2 (eats_trans _ _ _ E3
      (eats_trans _ _ _ E4 (eats_trans _ _ _ E5 E6))))))).
Qed.
Lemma names_loop_len names : forall ws record seen b r s b',
  @names_loop N names ws record seen b = Ok (r, s, b') -> length r <= length record.
Proof.
  induction ws as [|w ws IH]; intros record seen b r s b'; cbn [names_loop].
  - intros H; injection H as <- _ _. lia.
  - intros H. inv_bind H. destruct x as [name t]. apply string_entry_len in E.
    destruct (is_name names name); apply IH in H; lia.
Qed.
Lemma names_len names ws record b b' r : @parse_weight_names_line N names record ws b = Ok (b', r) -> length r <= length record.
Proof.
  unfold parse_weight_names_line. destruct names as [|n names]; [intros H; injection H as _ <-; lia|].
  intros H. inv_bind H. destruct x as [nn t1]. inv_bind H. destruct x as [[t2 seen] b2].
  apply u32_entry_eats in E. apply names_loop_len in E0. destruct E as (q & E & _).
  assert (length t1 <= length (tl record)) by (rewrite E, app_length; lia).
  assert (length (tl record) <= length record) by (destruct record; cbn; lia).
  destruct (List.find _ _); [discriminate|]. injection H as _ <-. lia.
Qed.

(** *** The weights of the event and the rest of the event are read independently *)

(** Which entries of the list of weights are added, line by line. *)
Definition with_weights (ws : list N) (b : EventBuilder N) : EventBuilder N := mkBuilder ws (b_out b).

Lemma particle_weights record b b' r ws : parse_particle_line double record b = Ok (b', r) ->
  b_weights b' = b_weights b /\ parse_particle_line double record (with_weights ws b) = Ok (with_weights ws b', r).
Proof.
  unfold parse_particle_line. intros H.
  inv_bind H. destruct x as [? t1]. inv_bind H. destruct x as [? t2]. inv_bind H. destruct x as [? t3].
  inv_bind H. destruct x as [? t4]. inv_bind H. destruct x as [? t5]. inv_bind H. destruct x as [? t6].
  inv_bind H. destruct x as [? t7]. inv_bind H. destruct x as [? t8].
  rewrite E. cbn [or_err bind]. rewrite E0. cbn [or_err bind]. rewrite E1. cbn [or_err bind]. rewrite E2. cbn [or_err bind].
  rewrite E3. cbn [or_err bind]. rewrite E4. cbn [or_err bind]. rewrite E5. cbn [or_err bind]. rewrite E6. cbn [or_err bind].
  destruct (negb _); injection H as <- <-; split; reflexivity.
Qed.

Definition pick (idx : list nat) (W : list N) : list N := flat_map (fun i => match nth_error W i with Some w => [w] | None => [] end) idx.

Lemma name_positions_shift names : forall n k record ps, name_positions names n 0 record = Ok ps ->
  name_positions names n k record = Ok (map (fun i => k + i) ps).
Proof.
  assert (G : forall n k d record ps, name_positions names n k record = Ok ps ->
    name_positions names n (d + k) record = Ok (map (fun i => d + i) ps)).
  { induction n as [|n IH]; intros k d record ps; cbn [name_positions]; [intros H; injection H as <-; reflexivity|].
    intros H. inv_bind H. destruct x as [name t]. inv_bind H. rewrite E. cbn [or_err bind].
    apply (IH _ d) in E0. rewrite Nat.add_succ_r in E0. rewrite E0. cbn [bind].
    injection H as <-. destruct (is_name names name); reflexivity. }
  intros n k record ps H. apply (G n 0 k) in H. rewrite Nat.add_0_r in H. exact H.
Qed.

Lemma names_loop_weights names : forall ws record seen b r s b', @names_loop N names ws record seen b = Ok (r, s, b') ->
  exists idx, name_positions names (length ws) 0 record = Ok idx /\ length s = length seen + length idx /\
    (forall i, In i idx -> i < length ws) /\ b' = mkBuilder (b_weights b ++ pick idx ws) (b_out b) /\
    forall ws2 b2, length ws2 = length ws -> @names_loop N names ws2 record seen b2 = Ok (r, s, mkBuilder (b_weights b2 ++ pick idx ws2) (b_out b2)).
Proof.
  induction ws as [|w ws IH]; intros record seen b r s b'; cbn [names_loop].
  - intros H; injection H as <- <- <-. exists []. split; [reflexivity|]. split; [cbn; lia|]. split; [intros ? []|]. split; [destruct b; cbn; rewrite app_nil_r; reflexivity|].
    intros ws2 b2 H2. destruct ws2; [|discriminate]. cbn. destruct b2; cbn; rewrite app_nil_r; reflexivity.
  - intros H. inv_bind H. destruct x as [name t].
    assert (Hpick : forall idx (v : N) vs, pick (map S idx) (v :: vs) = pick idx vs).
    { intros idx v vs. unfold pick. rewrite flat_map_concat_map, map_map, <- flat_map_concat_map. reflexivity. }
    destruct (is_name names name) eqn:En.
    + destruct (IH _ _ _ _ _ _ H) as (idx & Hnp & Hlen & Hidx & Hb & Hall). exists (0 :: map S idx). split; [|split; [|split; [|split]]].
      * cbn [length name_positions]. rewrite E. cbn [or_err bind]. rewrite (name_positions_shift _ _ 1 _ _ Hnp). cbn [bind]. rewrite En. reflexivity.
      * cbn [length] in *. rewrite map_length. lia.
      * intros i [<-|Hi]; [cbn; lia|]. apply in_map_iff in Hi as (j & <- & Hj). apply Hidx in Hj. cbn. lia.
      * rewrite Hb. cbn [pick flat_map nth_error add_weight b_weights b_out app]. fold (pick (map S idx) (w :: ws)).
        rewrite Hpick, <- app_assoc. reflexivity.
      * intros ws2 b2 H2. destruct ws2 as [|w2 ws2]; [discriminate|]. cbn [names_loop]. rewrite E. cbn [or_err bind]. rewrite En.
        rewrite (Hall ws2 (add_weight true b2 w2)) by (cbn in H2; lia).
        cbn [pick flat_map nth_error add_weight b_weights b_out app]. fold (pick (map S idx) (w2 :: ws2)).
        rewrite Hpick, <- app_assoc. reflexivity.
    + destruct (IH _ _ _ _ _ _ H) as (idx & Hnp & Hlen & Hidx & Hb & Hall). exists (map S idx). split; [|split; [|split; [|split]]].
      * cbn [length name_positions]. rewrite E. cbn [or_err bind]. rewrite (name_positions_shift _ _ 1 _ _ Hnp). cbn [bind]. rewrite En. reflexivity.
      * rewrite map_length. exact Hlen.
      * intros i Hi. apply in_map_iff in Hi as (j & <- & Hj). apply Hidx in Hj. cbn. lia.
      * rewrite Hb, Hpick. reflexivity.
      * intros ws2 b2 H2. destruct ws2 as [|w2 ws2]; [discriminate|]. cbn [names_loop]. rewrite E. cbn [or_err bind]. rewrite En.
        rewrite (Hall ws2 b2) by (cbn in H2; lia). rewrite Hpick. reflexivity.
Qed.

Lemma pick_firstn idx n W : (forall i, In i idx -> i < length (firstn n W)) -> pick idx (firstn n W) = pick idx W.
Proof.
  induction idx as [|i idx IH]; intros H; [reflexivity|]. cbn [pick flat_map]. fold (pick idx (firstn n W)). fold (pick idx W).
  rewrite IH by (intros j Hj; apply H; right; exact Hj). f_equal.
  specialize (H i (or_introl eq_refl)). rewrite firstn_length in H.
  replace (nth_error (firstn n W) i) with (nth_error W i); [reflexivity|].
  symmetry. rewrite <- (firstn_skipn n W) at 2. rewrite nth_error_app1; [reflexivity|]. rewrite firstn_length. lia.
Qed.

(** the names are found: at least one position for each *)
Lemma is_name_In names n : is_name names n = true <-> In n names.
Proof.
  unfold is_name. rewrite existsb_exists. split.
  - intros (y & Hx & H). destruct (list_eq_dec ascii_dec y n) as [->|]; [exact Hx|discriminate].
  - intros H. exists n. split; [exact H|]. destruct (list_eq_dec ascii_dec n n); congruence.
Qed.
Lemma all_seen names seen : NoDup names -> List.find (fun n => negb (is_name seen n)) names = None -> length names <= length seen.
Proof.
  intros Hnd Hf. apply NoDup_incl_length; [exact Hnd|]. intros n Hn. apply is_name_In.
  pose proof (List.find_none _ _ Hf n Hn) as H. cbn in H. apply negb_false_iff in H. exact H.
Qed.

(** What one line of names does: [record] is the text after the 'N' *)
Definition names_at (names : list text) (nW : nat) (record : text) (idx : list nat) : Prop :=
  (names = [] /\ idx = []) \/
  (names <> [] /\ exists nn r, u32_entry record = Some (nn, r) /\
     name_positions names (Nat.min (N.to_nat nn) nW) 0 r = Ok idx /\ (NoDup names -> length names <= length idx)).

Lemma names_weights names W c record b b' r : parse_weight_names_line names (c :: record) W b = Ok (b', r) ->
  exists idx, names_at names (length W) record idx /\ (forall i, In i idx -> i < length W) /\ b' = mkBuilder (b_weights b ++ pick idx W) (b_out b) /\
    forall W2 b2, length W2 = length W ->
      parse_weight_names_line names (c :: record) W2 b2 = Ok (mkBuilder (b_weights b2 ++ pick idx W2) (b_out b2), r).
Proof.
  unfold parse_weight_names_line. destruct names as [|n names].
  - intros H; injection H as <- <-. exists []. split; [left; auto|]. split; [intros ? []|]. cbn. split; [destruct b; cbn; rewrite app_nil_r; reflexivity|].
    intros W2 b2 _. destruct b2; cbn; rewrite app_nil_r; reflexivity.
  - cbn [tl]. intros H. inv_bind H. destruct x as [nn t1]. inv_bind H. destruct x as [[t2 seen] b3].
    destruct (names_loop_weights _ _ _ _ _ _ _ _ E0) as (idx & Hnp & Hlen & Hidx & -> & Hall).
    destruct (List.find (fun n0 => negb (is_name seen n0)) (n :: names)) eqn:F; [discriminate|]. injection H as <- <-.
    exists idx. split.
    { right. split; [discriminate|]. exists nn, t1. split; [exact E|]. rewrite <- firstn_length. split; [exact Hnp|].
      intros Hnd. apply all_seen in F; [|exact Hnd]. cbn [length] in *. lia. }
    split; [intros i Hi; apply Hidx in Hi; rewrite firstn_length in Hi; lia|].
    split; [rewrite pick_firstn by exact Hidx; reflexivity|].
    intros W2 b2 H2. rewrite E. cbn [or_err bind]. rewrite (Hall (firstn (N.to_nat nn) W2) b2) by (rewrite !firstn_length, H2; reflexivity).
    cbn [bind]. rewrite F. rewrite pick_firstn; [reflexivity|]. intros i Hi. apply Hidx in Hi. rewrite firstn_length in *. lia.
Qed.

(** [idx] are the positions found: none without a line of names; otherwise first those of the
    first such line *)
Definition found_at (names : list text) (nW : nat) (record : text) (idx : list nat) : Prop :=
  (~ occurs names_mark record -> idx = []) /\
  (NoDup names -> idx = [] \/ length names <= length idx) /\
  forall a rest, record = a ++ names_mark ++ rest -> ~ occurs names_mark (a ++ [NL]) ->
    exists idx1 idx2, idx = idx1 ++ idx2 /\ names_at names nW rest idx1 /\ (NoDup names -> idx2 = [] \/ length names <= length idx2).

Lemma found_at_nil names nW record : ~ In NL record -> found_at names nW record [].
Proof.
  intros H. split; [auto|]. split; [auto|]. intros a rest -> _. exfalso. apply H. rewrite !in_app_iff. right. left. left. reflexivity.
Qed.

(** going on behind a line that does not start with 'N' *)
Lemma found_at_later names nW x t q r idx : no_nl x -> t = q ++ r -> no_nl q -> heads (fun c => c <> "N"%char) t ->
  found_at names nW r idx -> found_at names nW (x ++ NL :: t) idx.
Proof.
  intros Hx -> Hq Ht (H1 & H2 & H3). split; [|split; [exact H2|]].
  - intros Hno. apply H1. intros (a & b & ->). apply Hno. exists (x ++ NL :: q ++ a), b. rewrite <- !app_assoc. cbn. rewrite <- !app_assoc. reflexivity.
  - intros a rest Heq Hfirst.
    assert (Hsplit : exists a', r = a' ++ names_mark ++ rest /\ a = x ++ NL :: q ++ a').
    { destruct (app_split_mid _ _ _ _ Heq) as [(s & Hs & Hs2)|(s & Hs & Hs2)].
      - (* the first mark begins within x or right after it *)
        destruct s as [|c s]; cbn in Hs2.
        + exfalso. injection Hs2 as Hs2. rewrite <- Hs2 in Ht || rewrite Hs2 in Ht. cbn in Ht. congruence.
        + exfalso. injection Hs2 as <- _. apply Hx. rewrite Hs. apply in_or_app. right. left. reflexivity.
      - destruct s as [|c s]; cbn in Hs2.
        + exfalso. injection Hs2 as Hs2. rewrite <- Hs2 in Ht || rewrite Hs2 in Ht. cbn in Ht. congruence.
        + injection Hs2 as <- Hs2. destruct (app_split_mid _ _ _ _ Hs2) as [(z & Hz & Hz2)|(z & Hz & Hz2)].
          * destruct z as [|c z]; cbn in Hz2.
            -- rewrite app_nil_r in Hz. exists []. split; [symmetry; exact Hz2|]. subst q. rewrite app_nil_r. exact Hs.
            -- exfalso. injection Hz2 as <- _. apply Hq. rewrite Hz. apply in_or_app. right. left. reflexivity.
          * exists z. split; [exact Hz2|]. rewrite Hs, Hz. reflexivity. }
    destruct Hsplit as (a' & Hr & ->). apply (H3 a' rest Hr).
    intros (p & b & Hpb). apply Hfirst. exists (x ++ NL :: q ++ p), b.
    rewrite <- !app_assoc. cbn. rewrite <- !app_assoc. rewrite Hpb. reflexivity.
Qed.

Lemma found_at_names names nW x t idx1 idx2 : no_nl x -> names_at names nW t idx1 ->
  (NoDup names -> idx2 = [] \/ length names <= length idx2) ->
  found_at names nW (x ++ NL :: "N"%char :: t) (idx1 ++ idx2).
Proof.
  intros Hx H1 H2. split; [|split].
  - intros Hno. exfalso. apply Hno. exists x, t. reflexivity.
  - intros Hnd. rewrite app_length. destruct H1 as [[-> ->]|(_ & nn & r & _ & _ & Hl)]; [right; cbn; lia|]. right. specialize (Hl Hnd). lia.
  - intros a rest Heq Hfirst. exists idx1, idx2. split; [reflexivity|]. split; [|exact H2].
    assert (a = x /\ rest = t) as [-> ->]; [|exact H1].
    destruct (app_split_mid _ _ _ _ Heq) as [(s & Hs & Hs2)|(s & Hs & Hs2)].
    + destruct s as [|c s]; cbn in Hs2.
      * rewrite app_nil_r in Hs. injection Hs2 as ->. auto.
      * exfalso. injection Hs2 as <- _. apply Hx. rewrite Hs. apply in_or_app. right. left. reflexivity.
    + destruct s as [|c s]; cbn in Hs2; [rewrite app_nil_r in Hs; injection Hs2 as <-; auto|].
      exfalso. injection Hs2 as <- Hs2. apply Hfirst. destruct s as [|c s]; cbn in Hs2.
      * discriminate.
      * injection Hs2 as <- Hs2. exists x, (s ++ [NL]). rewrite Hs, <- !app_assoc. reflexivity.
Qed.

Lemma parse_lines_weights mw names : forall f f2 W record u b u' b', length record <= f -> length record <= f2 ->
  parse_lines double f mw names W record u b = Ok (u', b') ->
  exists idx, (forall i, In i idx -> i < length W) /\ (mw = false -> idx = []) /\ (mw = true -> found_at names (length W) record idx) /\
    b_weights b' = b_weights b ++ pick idx W /\
    forall W2 wts, length W2 = length W ->
      parse_lines double f2 mw names W2 record u (with_weights wts b) = Ok (u', with_weights (wts ++ pick idx W2) b').
Proof.
  induction f as [|f IH]; intros f2 W record u b u' b' Hf Hf2.
  - destruct record; [|cbn in Hf; lia]. cbn. intros H; injection H as <- <-.
    exists []. split; [intros ? []|]. split; [auto|]. split; [intros _; apply found_at_nil; intros []|]. split; [cbn; rewrite app_nil_r; reflexivity|].
    intros W2 wts _. destruct f2; cbn; rewrite app_nil_r; reflexivity.
  - cbn [parse_lines]. destruct (find [NL] record) as [pos|] eqn:F.
    2:{ intros H; injection H as <- <-. exists []. split; [intros ? []|]. split; [auto|].
        split; [intros _; apply found_at_nil, find_char_none; exact F|]. split; [cbn; rewrite app_nil_r; reflexivity|].
        intros W2 wts _. destruct f2; cbn [parse_lines]; rewrite F; cbn; rewrite app_nil_r; reflexivity. }
    destruct f2 as [|f2]; [apply find_char_some in F as (a & t & -> & _); rewrite app_length in Hf2; cbn in Hf2; lia|].
    cbn [parse_lines]. setoid_rewrite F.
    destruct (find_char_some _ _ _ F) as (x & t & Hrec & Hpos & Hx).
    assert (Hskip : skipn (pos + 1) record = t).
    { rewrite Hrec, <- Hpos. replace (x ++ NL :: t) with ((x ++ [NL]) ++ t) by (rewrite <- app_assoc; reflexivity).
      replace (length x + 1) with (length (x ++ [NL])) by (rewrite app_length; reflexivity).
      rewrite skipn_app, skipn_all, Nat.sub_diag. reflexivity. }
    rewrite Hskip. assert (Hlen : length t < length record) by (rewrite Hrec, app_length; cbn [length]; lia).
    assert (Hgo : forall r, (exists q, t = q ++ r /\ no_nl q) -> (mw = true -> heads (fun c => c <> "N"%char) t) -> forall u b,
       parse_lines double f mw names W r u b = Ok (u', b') ->
       exists idx, (forall i, In i idx -> i < length W) /\ (mw = false -> idx = []) /\ (mw = true -> found_at names (length W) record idx) /\
         b_weights b' = b_weights b ++ pick idx W /\
         forall W2 wts, length W2 = length W ->
           parse_lines double f2 mw names W2 r u (with_weights wts b) = Ok (u', with_weights (wts ++ pick idx W2) b')).
    { intros r (q & Hq & Hnq) Hhd u0 b0 H.
      destruct (IH f2 W r u0 b0 u' b') as (idx & Hi & Hm & Hf0 & Hrest); [rewrite Hq, app_length in Hlen; lia|rewrite Hq, app_length in Hlen; lia|exact H|].
      exists idx. split; [exact Hi|]. split; [exact Hm|]. split; [|exact Hrest].
      intros Hmw. rewrite Hrec. eapply found_at_later; eauto. }
    assert (Hself : exists q, t = q ++ t /\ no_nl q) by (exists []; split; [reflexivity|intros []]).
    destruct t as [|c rest] eqn:Es; [intros H; apply Hgo; [exact Hself|intros _; exact I|exact H]|]. rewrite <- Es in *.
    destruct (ceq c "V" || ceq c "F" || ceq c "H" || ceq c "C" || negb mw && ceq c "N") eqn:Ev.
    { intros H; apply Hgo; [exact Hself| |exact H]. intros ->. rewrite Es. cbn. intros ->. discriminate. }
    destruct (ceq c "N") eqn:En.
    { apply ceq_true in En. subst c. assert (mw = true) as -> by (destruct mw; [reflexivity|discriminate]).
      intros H. inv_bind H. destruct x0 as [b1 r1]. rewrite Es in E. pose proof (names_len _ _ _ _ _ _ E) as Hl.
      destruct (names_weights _ _ _ _ _ _ _ E) as (idx1 & Hat & Hi1 & -> & Hall1).
      destruct (IH f2 W r1 u (mkBuilder (b_weights b ++ pick idx1 W) (b_out b)) u' b') as (idx2 & Hi2 & _ & Hf0 & Hw & Hall2); [rewrite <- Es in Hl; lia|rewrite <- Es in Hl; lia|exact H|].
      exists (idx1 ++ idx2). split; [intros i Hi; apply in_app_iff in Hi as [Hi|Hi]; auto|]. split; [discriminate|].
      split; [intros _; rewrite Hrec, Es; apply found_at_names; [exact Hx|exact Hat|apply Hf0; reflexivity]|].
      assert (Hp : forall V, pick (idx1 ++ idx2) V = pick idx1 V ++ pick idx2 V) by (intros V; apply flat_map_app).
      split; [rewrite Hw, Hp; cbn; rewrite app_assoc; reflexivity|].
      intros W2 wts H2. rewrite Es, (Hall1 W2 _ H2). cbn [bind with_weights b_weights b_out].
      rewrite Hp, app_assoc. apply (Hall2 W2 (wts ++ pick idx1 W2) H2). }
    assert (HnN : mw = true -> heads (fun c => c <> "N"%char) t) by (intros _; rewrite Es; cbn; apply ceq_false; exact En).
    destruct (ceq c "P") eqn:EP.
    { apply ceq_true in EP. intros H. inv_bind H. destruct x0 as [b1 r1]. rewrite Es in E.
      pose proof (particle_eats c rest b b1 r1 ltac:(subst c; discriminate) E) as Hq. rewrite <- Es in Hq.
      destruct (Hgo r1 Hq HnN _ _ H) as (idx & Hi & Hmw & Hfa & Hw & Hall).
      exists idx. split; [exact Hi|]. split; [exact Hmw|]. split; [exact Hfa|].
      split; [rewrite Hw; destruct (particle_weights _ _ _ _ [] E) as [-> _]; reflexivity|].
      intros W2 wts H2. rewrite Es. destruct (particle_weights _ _ _ _ wts E) as [_ ->]. cbn [bind]. apply Hall. exact H2. }
    destruct (ceq c "U") eqn:EU.
    { apply ceq_true in EU. intros H. inv_bind H. destruct x0 as [u1 r1]. rewrite Es in E.
      pose proof (units_eats c rest u1 r1 ltac:(subst c; discriminate) E) as Hq. rewrite <- Es in Hq.
      destruct (Hgo r1 Hq HnN _ _ H) as (idx & Hi & Hmw & Hfa & Hw & Hall).
      exists idx. split; [exact Hi|]. split; [exact Hmw|]. split; [exact Hfa|]. split; [exact Hw|].
      intros W2 wts H2. rewrite Es, E. cbn [bind]. apply Hall. exact H2. }
    destruct (forallb is_white t); [intros H; apply Hgo; [exact Hself|exact HnN|exact H]|discriminate].
Qed.

(** characters before the first line break do not matter *)
Lemma parse_lines_skip mw names f W junk record u b : ~ In NL junk ->
  parse_lines double f mw names W (junk ++ record) u b = parse_lines double f mw names W record u b.
Proof.
  intros Hj. assert (Hf : find [NL] (junk ++ record) = match find [NL] record with Some n => Some (length junk + n) | None => None end).
  { destruct (find [NL] record) as [n|] eqn:F.
    - apply find_char_some in F as (a & t & -> & <- & Ha). rewrite app_assoc, <- app_length. apply find_char.
      rewrite in_app_iff. tauto.
    - apply find_char_none in F. apply find_char_none. rewrite in_app_iff. tauto. }
  destruct f; cbn [parse_lines]; rewrite Hf; destruct (find [NL] record) as [n|]; try reflexivity.
  replace (skipn (length junk + n + 1) (junk ++ record)) with (skipn (n + 1) record); [reflexivity|].
  rewrite skipn_app. rewrite (@skipn_all2 _ (length junk + n + 1) junk) by lia. cbn [app]. f_equal. lia.
Qed.

(** *** One weight *)
Definition hepmc_finish (x : energy_unit * EventBuilder N) : Event N :=
  build sort (match fst x with GeV => snd x | MeV => rescale_energies (snd x) milli end).

Lemma finish_weights u ws b : hepmc_finish (u, with_weights ws b) = mkEvent (ev_id (hepmc_finish (u, b))) ws (ev_out (hepmc_finish (u, b))).
Proof. destruct u; reflexivity. Qed.

Lemma update_first record pre s tok post w : record = pre ++ s ++ tok ++ post -> blanks s -> word tok -> heads whitespace post ->
  update_central_weight show record (length pre) w = Ok (pre ++ firstn 1 s ++ show w ++ post).
Proof.
  intros -> Hs Ht Hp. unfold update_central_weight.
  rewrite skipn_app, skipn_all, Nat.sub_diag. cbn [app skipn]. rewrite any_entry_app by assumption. cbn [or_err bind].
  unfold replace_range.
  assert (Hls : 1 <= length s) by (destruct Hs as [Hs _]; destruct s; [congruence|cbn; lia]).
  assert (Hlt : 1 <= length tok) by (destruct Ht as [Ht _]; destruct tok; [congruence|cbn; lia]).
  replace (length (pre ++ s ++ tok ++ post) - length post) with (length (pre ++ s ++ tok)) by (rewrite !app_length; lia).
  replace (length (pre ++ s ++ tok) <? length pre + 1) with false by (symmetry; apply Nat.ltb_ge; rewrite !app_length; lia).
  replace (length (pre ++ s ++ tok ++ post) <? length (pre ++ s ++ tok)) with false by (symmetry; apply Nat.ltb_ge; rewrite !app_length; lia).
  cbn [orb]. f_equal. replace (pre ++ s ++ tok ++ post) with ((pre ++ s ++ tok) ++ post) by (rewrite <- !app_assoc; reflexivity).
  rewrite skipn_app, skipn_all, Nat.sub_diag. cbn [app skipn].
  rewrite <- !app_assoc, firstn_app, firstn_all2 by lia.
  replace (length pre + 1 - length pre) with 1 by lia. rewrite firstn_app.
  replace (1 - length s) with 0 by lia. cbn [firstn]. rewrite app_nil_r, <- app_assoc. reflexivity.
Qed.
End Parse.
