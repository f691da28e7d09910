(** Lemmas about [ModelCres]. *)
From Verif Require Import Base BaseProofs Num ModelEvent ModelCres SpecCres.
Set Implicit Arguments.
Unset Strict Implicit.

Lemma collect_inl A E (l : list (A + E)) xs : collect l = inl xs -> l = map inl xs.
Proof.
  revert xs. induction l as [|[a|e] l IH]; intros xs H; cbn in H; try discriminate.
  - injection H as <-. auto.
  - destruct (collect l) as [ys|]; [|discriminate]. injection H as <-. cbn. f_equal. auto.
Qed.

Lemma collect_inr A E (l : list (A + E)) e : collect l = inr e -> In (inr e) l.
Proof.
  induction l as [|[a|e'] l IH]; intros H; cbn in H; try discriminate.
  - destruct (collect l) as [ys|]; [discriminate|]. right. auto.
  - injection H as ->. left. auto.
Qed.

Section C.
Context (N : NumOps) (Rec Err : Type) (is_ntuple : Rec -> bool)
  (convert : Rec -> Event N + Err) (cluster : Event N -> Event N + Err).

Lemma treat_ok id rec e : treat convert cluster id rec = inl e <-> event_of convert cluster id (inl rec) e.
Proof.
  unfold treat, event_of. split.
  - destruct (convert rec) as [ev|] eqn:E1; [|discriminate]. destruct (cluster ev) as [ev'|] eqn:E2; [|discriminate].
    destruct (Nat.eqb_spec (ev_id ev') 0) as [E3|]; [|discriminate]. intros H. injection H as <-.
    exists rec, ev, ev'. auto.
  - intros (rec' & ev & ev' & H & E1 & E2 & E3 & ->). injection H as <-. rewrite E1, E2, E3. reflexivity.
Qed.

Lemma treat_bad id rec err : treat convert cluster id rec = inr err -> fault convert cluster (inl rec) err.
Proof.
  unfold treat. destruct (convert rec) as [ev|] eqn:E1.
  - destruct (cluster ev) as [ev'|] eqn:E2.
    + destruct (Nat.eqb_spec (ev_id ev') 0) as [E3|E3]; [discriminate|]. intros H. injection H as <-.
      econstructor; eauto.
    + intros H. injection H as <-. econstructor; eauto.
  - intros H. injection H as <-. econstructor; eauto.
Qed.

Lemma event_no_fault n r e err : event_of convert cluster n r e -> ~ fault convert cluster r err.
Proof.
  intros (rec & ev & ev' & -> & E1 & E2 & E3 & ->) F. inversion F; subst; congruence.
Qed.

Lemma read_loop_err id records pushed res err :
  read_loop is_ntuple convert cluster id records = (pushed, res) ->
  In (inr err) pushed \/ res = Some err -> exists r, In r records /\ fault convert cluster r err.
Proof.
  revert id pushed res. induction records as [|[rec|e] records IH]; intros id pushed res H Hin; cbn in H.
  - injection H as <- <-. destruct Hin as [[]|]; discriminate.
  - destruct (is_ntuple rec).
    + destruct (treat convert cluster id rec) as [ev|err'] eqn:Et.
      * destruct (read_loop is_ntuple convert cluster (S id) records) as [p r] eqn:Er. injection H as <- <-.
        destruct (IH _ _ _ Er) as (r' & H1 & H2).
        { destruct Hin as [[Hd|Hin]|Hin]; [discriminate|auto|auto]. }
        exists r'. split; [right; auto|auto].
      * injection H as <- <-. destruct Hin as [[]|Hin]. injection Hin as ->.
        exists (inl rec). split; [left; auto|]. eapply treat_bad; eauto.
    + destruct (read_loop is_ntuple convert cluster (S id) records) as [p r] eqn:Er. injection H as <- <-.
      destruct Hin as [[Hd|Hin]|Hin].
      * exists (inl rec). split; [left; auto|]. eapply treat_bad; eauto.
      * destruct (IH _ _ _ Er) as (r' & H1 & H2); [auto|]. exists r'. split; [right; auto|auto].
      * destruct (IH _ _ _ Er) as (r' & H1 & H2); [auto|]. exists r'. split; [right; auto|auto].
  - injection H as <- <-. destruct Hin as [[]|Hin]. injection Hin as <-.
    exists (inr e). split; [left; auto|constructor].
Qed.

Lemma read_loop_ok id records pushed :
  read_loop is_ntuple convert cluster id records = (pushed, None) ->
  forall evs, pushed = map inl evs -> length evs = length records /\
    forall n r e, nth_error records n = Some r -> nth_error evs n = Some e -> event_of convert cluster (id + n) r e.
Proof.
  revert id pushed. induction records as [|[rec|e] records IH]; intros id pushed H evs Hp; cbn in H.
  - injection H as <-. destruct evs; [|discriminate]. split; auto. intros [|n] r e Hn; discriminate.
  - assert (exists ev p, treat convert cluster id rec = inl ev /\
      read_loop is_ntuple convert cluster (S id) records = (p, None) /\ pushed = inl ev :: p) as (ev & p & H1 & H2 & ->).
    { destruct (is_ntuple rec).
      - destruct (treat convert cluster id rec) as [ev|err']; [|discriminate].
        destruct (read_loop is_ntuple convert cluster (S id) records) as [p r]. injection H as <- ->. eauto.
      - destruct (read_loop is_ntuple convert cluster (S id) records) as [p r]. injection H as <- ->.
        destruct evs as [|ev evs]; [discriminate|]. cbn in Hp. injection Hp as -> ->. eauto. }
    destruct evs as [|ev' evs]; [discriminate|]. cbn in Hp. injection Hp as <- ->.
    destruct (IH _ _ H2 evs eq_refl) as [Hl He]. split; [cbn; f_equal; auto|].
    intros [|n] r e Hr He'; cbn in Hr, He'.
    + injection Hr as <-. injection He' as <-. rewrite Nat.add_0_r. apply treat_ok. auto.
    + replace (id + S n) with (S id + n) by lia. eauto.
  - discriminate.
Qed.

Lemma read_events_err shuffle records err : reorders shuffle ->
  read_events is_ntuple convert cluster shuffle records = inr err ->
  exists r, In r records /\ fault convert cluster r err.
Proof.
  intros Hs. unfold read_events. destruct (read_loop is_ntuple convert cluster 0 records) as [p res] eqn:E.
  intros H. apply (read_loop_err E). destruct res as [err'|]; [injection H as ->; auto|].
  left. apply collect_inr in H. eapply Permutation_in; [|exact H]. apply Permutation_sym, Hs.
Qed.

Lemma read_events_ok shuffle records used : reorders shuffle ->
  read_events is_ntuple convert cluster shuffle records = inl used ->
  exists evs, events_of convert cluster records evs /\ Permutation evs used.
Proof.
  intros Hs. unfold read_events. destruct (read_loop is_ntuple convert cluster 0 records) as [p res] eqn:E.
  intros H. destruct res as [err'|]; [discriminate|]. apply collect_inl in H.
  pose proof (Hs p) as Hp. rewrite H in Hp.
  apply Permutation_map_inv in Hp. destruct Hp as (evs & Hp & Hperm).
  exists evs. split; [|apply Permutation_sym; auto].
  destruct (read_loop_ok E Hp) as [H1 H2]. split; auto.
Qed.

Lemma events_of_no_fault records evs r err :
  events_of convert cluster records evs -> In r records -> ~ fault convert cluster r err.
Proof.
  intros [Hl He] Hin. destruct (In_nth_error _ _ Hin) as [n Hn].
  assert (n < length records) by (apply nth_error_Some; congruence).
  destruct (nth_error evs n) as [e|] eqn:En; [|apply nth_error_None in En; lia].
  eapply event_no_fault. eauto.
Qed.

Lemma has_particles_eq (e : Event N) :
  negb (match ev_out e with [] => true | _ => false end) = has_particles e.
Proof. unfold has_particles. destruct (ev_out e); reflexivity. Qed.

Lemma filter_perm A (f : A -> bool) l l' : Permutation l l' -> Permutation (filter f l) (filter f l').
Proof.
  induction 1; cbn; auto.
  - destruct (f x); auto.
  - destruct (f x), (f y); auto. constructor.
  - eapply perm_trans; eauto.
Qed.

Lemma nth_error_repeat_lt A (x : A) m n : n < m -> nth_error (repeat x m) n = Some x.
Proof. revert n. induction m; intros [|n] H; cbn; try lia; auto. apply IHm. lia. Qed.

Lemma table_fold (events : list (Event N)) ws ws' :
  ofold (fun ws e => set_nth (ev_id e) (ev_weights e) ws) events ws = Some ws' ->
  length ws' = length ws /\
  (forall n, ~ In n (map ev_id events) -> nth_error ws' n = nth_error ws n) /\
  (NoDup (map ev_id events) -> forall e, In e events -> nth_error ws' (ev_id e) = Some (ev_weights e)).
Proof.
  revert ws. induction events as [|e events IH]; intros ws H; cbn in H.
  - injection H as <-. split; auto. split; auto. intros _ e [].
  - destruct (set_nth (ev_id e) (ev_weights e) ws) as [ws1|] eqn:E; [|discriminate].
    apply set_nth_spec in E. destruct E as (E1 & E2 & E3). destruct (IH _ H) as (H1 & H2 & H3).
    split; [congruence|]. split.
    + intros n Hn. cbn in Hn. rewrite H2 by tauto. rewrite E3.
      destruct (Nat.eqb_spec n (ev_id e)); [subst; tauto|auto].
    + intros Hnd e' [<-|Hin]; cbn in Hnd; inversion Hnd as [|? ? Hni Hnd']; subst.
      * rewrite H2 by auto. rewrite E3, Nat.eqb_refl. auto.
      * auto.
Qed.

Lemma table_some (events : list (Event N)) ws :
  Forall (fun e => ev_id e < length ws) events ->
  exists ws', ofold (fun ws e => set_nth (ev_id e) (ev_weights e) ws) events ws = Some ws'.
Proof.
  revert ws. induction events as [|e events IH]; intros ws H; cbn; eauto.
  inversion H as [|? ? H1 H2]; subst. destruct (set_nth_some (ev_weights e) ws H1) as [ws1 E]. rewrite E.
  apply IH. apply set_nth_spec in E. destruct E as (_ & -> & _). auto.
Qed.

Lemma ev_leb_preorder (P : Event N -> Prop) : total_preorder_on P ev_leb.
Proof.
  unfold ev_leb. split.
  - intros x y _ _. rewrite !Nat.leb_le. lia.
  - intros x y z _ _ _. rewrite !Nat.leb_le. lia.
Qed.

Context (mw : bool) (sort : sorter) (resample unweighter : list (Event N) -> option (list (Event N) + Err))
  (shuffle : list (Event N + @cres_error Err) -> list (Event N + @cres_error Err)).
Notation run := (cres_run is_ntuple convert cluster mw sort shuffle resample unweighter).

Lemma run_fault records : reorders shuffle ->
  (exists r err, In r records /\ fault convert cluster r err) ->
  exists r err, In r records /\ fault convert cluster r err /\ run records = Failed err.
Proof.
  intros Hs (r & err & Hin & Hf). unfold cres_run.
  destruct (read_events is_ntuple convert cluster shuffle records) as [used|err'] eqn:E.
  - exfalso. destruct (read_events_ok Hs E) as (evs & He & _). eapply events_of_no_fault; eauto.
  - destruct (read_events_err Hs E) as (r' & H1 & H2). exists r', err'. auto.
Qed.

Lemma run_used records : reorders shuffle ->
  (forall r err, In r records -> ~ fault convert cluster r err) ->
  exists evs used, events_of convert cluster records evs /\ Permutation (filter has_particles evs) used /\
    (resample used = None -> run records = Panicked) /\
    (forall e, resample used = Some (inr e) -> run records = Failed (ResamplingErr e)) /\
    (forall evs1, resample used = Some (inl evs1) ->
       (unweighter evs1 = None -> run records = Panicked) /\
       (forall e, unweighter evs1 = Some (inr e) -> run records = Failed (UnweightErr e)) /\
       (forall evs2, unweighter evs1 = Some (inl evs2) -> sort_ok sort ->
          Forall (fun e => ev_weights e <> [] /\ ev_id e < length records) evs2 ->
          NoDup (map ev_id evs2) ->
          exists W, run records = Wrote W /\ length W = length records /\
            (forall e, In e evs2 -> nth_error W (ev_id e) = Some (ev_weights e)) /\
            (forall n, n < length records -> ~ In n (map ev_id evs2) -> nth_error W n = Some (weights_default mw)))).
Proof.
  intros Hs Hn. unfold cres_run.
  destruct (read_events is_ntuple convert cluster shuffle records) as [used0|err'] eqn:E.
  2:{ exfalso. destruct (read_events_err Hs E) as (r' & H1 & H2). eapply Hn; eauto. }
  destruct (read_events_ok Hs E) as (evs & He & Hp).
  exists evs, (filter has_particles used0). split; auto. split; [apply filter_perm; auto|].
  rewrite (filter_ext _ _ has_particles_eq).
  split; [intros ->; auto|]. split; [intros e ->; auto|]. intros evs1 ->.
  split; [intros ->; auto|]. split; [intros e ->; auto|]. intros evs2 -> Hsort Hf Hnd.
  destruct (Hsort _ ev_leb evs2 (ev_leb_preorder _)) as [Hperm _].
  set (srt := @sort (Event N) ev_leb evs2) in *.
  assert (Hf' : Forall (fun e => ev_weights e <> [] /\ ev_id e < length records) srt) by (eapply Permutation_Forall; eauto).
  assert (exists ws, omap ev_weight srt = Some ws) as [ws Ew].
  { clear - Hf'. induction Hf' as [|e l [H1 _] Hl IH]; cbn [omap]; eauto. destruct IH as [ws ->].
    unfold ev_weight, central. destruct (ev_weights e) as [|w l']; [congruence|]. cbn. eauto. }
  rewrite Ew. assert (Hlen : length used0 = length records).
  { destruct He as [He _]. rewrite <- He. symmetry. apply Permutation_length. auto. }
  rewrite Hlen. unfold weights_table.
  destruct (@table_some srt (repeat (weights_default mw) (length records))) as [W HW].
  { rewrite repeat_length. eapply Forall_impl; [|exact Hf']. intros e [_ H]. exact H. }
  rewrite HW. exists W. split; auto. destruct (table_fold HW) as (H1 & H2 & H3).
  rewrite repeat_length in H1. split; auto.
  assert (Hid : Permutation (map ev_id evs2) (map ev_id srt)) by (apply Permutation_map; auto).
  split.
  - intros e Hin. apply H3; [eapply Permutation_NoDup; eauto|eapply Permutation_in; eauto].
  - intros n Hlt Hni. rewrite H2; [apply nth_error_repeat_lt; auto|].
    intros Hin. apply Hni. eapply Permutation_in; [apply Permutation_sym; exact Hid|auto].
Qed.

Lemma run_wrote records W : reorders shuffle -> sort_ok sort -> run records = Wrote W ->
  length W = length records /\
  exists evs used evs1 evs2, events_of convert cluster records evs /\ Permutation (filter has_particles evs) used /\
    resample used = Some (inl evs1) /\ unweighter evs1 = Some (inl evs2) /\
    (forall e, In e evs2 -> ev_id e < length records) /\
    (NoDup (map ev_id evs2) ->
       (forall e, In e evs2 -> nth_error W (ev_id e) = Some (ev_weights e)) /\
       (forall n, n < length records -> ~ In n (map ev_id evs2) -> nth_error W n = Some (weights_default mw))).
Proof.
  intros Hs Hsort. unfold cres_run.
  destruct (read_events is_ntuple convert cluster shuffle records) as [used0|err'] eqn:E; [|discriminate].
  destruct (read_events_ok Hs E) as (evs & He & Hp).
  rewrite (filter_ext _ _ has_particles_eq).
  destruct (resample (filter has_particles used0)) as [[evs1|]|] eqn:Er; try discriminate.
  destruct (unweighter evs1) as [[evs2|]|] eqn:Eu; try discriminate.
  destruct (Hsort _ ev_leb evs2 (ev_leb_preorder _)) as [Hperm _].
  set (srt := @sort (Event N) ev_leb evs2) in *.
  destruct (omap ev_weight srt) as [ws|]; [|discriminate].
  destruct (weights_table mw (length used0) srt) as [W'|] eqn:HW; [|discriminate]. intros H. injection H as ->.
  assert (Hlen : length used0 = length records).
  { destruct He as [He _]. rewrite <- He. symmetry. apply Permutation_length. auto. }
  rewrite Hlen in HW. unfold weights_table in HW. destruct (table_fold HW) as (H1 & H2 & H3). rewrite repeat_length in H1.
  split; auto. exists evs, (filter has_particles used0), evs1, evs2.
  split; auto. split; [apply filter_perm; auto|]. split; auto. split; auto.
  assert (Hid : Permutation (map ev_id evs2) (map ev_id srt)) by (apply Permutation_map; auto).
  split.
  - intros e Hin. assert (Hin' : In e srt) by (eapply Permutation_in; eauto). clear - HW Hin' .
    assert (Hlr := repeat_length (weights_default (N := N) mw) (length records)).
    revert HW Hlr. generalize (repeat (weights_default (N := N) mw) (length records)).
    induction srt as [|e' l IH]; [destruct Hin'|]. intros ws HW Hlr. cbn in HW.
    destruct (set_nth (ev_id e') (ev_weights e') ws) as [ws1|] eqn:E; [|discriminate].
    apply set_nth_spec in E. destruct E as (E1 & E2 & _).
    destruct Hin' as [<-|Hin']; [lia|]. apply (IH Hin' ws1); [auto|lia].
  - intros Hnd. split.
    + intros e Hin. apply H3; [eapply Permutation_NoDup; eauto|eapply Permutation_in; eauto].
    + intros n Hlt Hni. rewrite H2; [apply nth_error_repeat_lt; auto|].
      intros Hin. apply Hni. eapply Permutation_in; [apply Permutation_sym; exact Hid|auto].
Qed.

End C.
