(** The program with files does the same as the program of ModelMain.v, unless a system call fails. *)
From Verif Require Import Base Num ModelEvent ModelText ModelHepMC ModelLHEF ModelStripper ModelIO IOProofs ModelCres ModelMain ModelFS SpecFS FSProofs.

Section Grow.
Context (start : disk) (faults : nat -> option nat) (cap : nat).
Notation nofault := (no_failure faults).
Lemma do_write_grows p off bytes log : let '(ok, _, log') := do_write faults p off bytes log in grows [p] log log' /\ (ok = false -> ~ nofault log').
Proof.
  unfold do_write. destruct (faults (length log)) eqn:E; (split; [apply grows_one; reflexivity|]); [|discriminate].
  intros _ H. rewrite H in E; [discriminate|]. rewrite app_length. cbn. lia.
Qed.
Lemma flush_grows w log : let '(ok, w', log') := flush_buf faults w log in w_path w' = w_path w /\ grows [w_path w] log log' /\ (ok = false -> ~ nofault log').
Proof.
  unfold flush_buf. destruct (w_buf w); [split; [reflexivity|split; [apply grows_refl|discriminate]]|].
  pose proof (do_write_grows (w_path w) (w_offset w) (a :: t) log) as H. destruct (do_write _ _ _ _ _) as [[ok n] log']. auto.
Qed.
Lemma drop_grows w log : grows [w_path w] log (drop_writer faults w log).
Proof. unfold drop_writer. pose proof (flush_grows w log) as H. destruct (flush_buf faults w log) as [[ok w'] log']. apply H. Qed.
Lemma write_all_grows bytes w log : let '(ok, w', log') := write_all faults cap bytes w log in w_path w' = w_path w /\ grows [w_path w] log log' /\ (ok = false -> ~ nofault log').
Proof.
  unfold write_all. destruct (length bytes <? cap - length (w_buf w)); [split; [reflexivity|split; [apply grows_refl|discriminate]]|].
  assert (F : exists ok w1 log1, (if cap - length (w_buf w) <? length bytes then flush_buf faults w log else (true, w, log)) = (ok, w1, log1) /\
    w_path w1 = w_path w /\ grows [w_path w] log log1 /\ (ok = false -> ~ nofault log1)).
  { destruct (cap - length (w_buf w) <? length bytes).
    - pose proof (flush_grows w log) as H. destruct (flush_buf faults w log) as [[ok w1] log1]. exists ok, w1, log1. auto.
    - exists true, w, log. repeat split; [apply grows_refl|discriminate]. }
  destruct F as (ok & w1 & log1 & -> & Ep & Hg & Hf). destruct ok; cbn [negb]; [|auto].
  destruct (cap <=? length bytes); [|split; [exact Ep|split; [exact Hg|discriminate]]]. rewrite Ep.
  pose proof (do_write_grows (w_path w) (w_offset w1) bytes log1) as H. destruct (do_write _ _ _ _ _) as [[ok n] log2]. destruct H as [H1 H2].
  split; [reflexivity|]. split; [eapply grows_trans; eauto|exact H2].
Qed.
Lemma new_output_grows p header log : let '(o, log') := new_output faults cap p header log in
  grows [p] log log' /\ match o with Some w => w_path w = p | None => ~ nofault log' end.
Proof.
  unfold new_output. pose proof (do_create_spec start faults p log) as C. destruct (do_create faults p log) as [ok log1].
  destruct C as (G1 & [(-> & _)|(-> & El & Hf)]); cbn [negb]; [|auto].
  pose proof (write_all_grows header (mkWriter p 0 []) log1) as W. destruct (write_all faults cap header _ log1) as [[ok w] log2]. cbn [w_path] in W.
  destruct W as (W1 & W2 & W3). destruct ok; cbn [negb].
  - split; [eapply grows_trans; eauto|exact W1].
  - pose proof (drop_grows w log2) as D. rewrite W1 in D. split; [eapply grows_trans; [exact G1|]; eapply grows_trans; eauto|].
    intros H. apply W3; [reflexivity|]. eapply grows_nofault; eauto.
Qed.
End Grow.

Section Mirror.
Context (start : disk) (faults : nat -> option nat) (cap : nat).
Context (N : NumOps) (double : parser N) (show : N -> text) (xml : text -> option (xml_tag N))
  (checks mw : bool) (names : list text) (scaling : list (text * N)).
Context (ps : list (path * path)) (fs : list text).
Hypothesis Hin : input_files start ps fs.
Hypothesis Hsep : forall p, In p (map fst ps) -> ~ In p (map snd ps).
Notation nofault := (no_failure faults).
Notation outs := (map snd ps).
Notation xi := (header_info xml).
Notation build := (build_from_files xi checks scaling).
Notation copen := (cio_open xi checks scaling).
Notation dopen := (dio_open start faults cap xml checks scaling ps).

Lemma ps_len : length ps = length fs.
Proof. clear Hsep. unfold input_files in Hin. induction Hin as [|? ? ? ? ? ? IH]; cbn; [reflexivity|]. f_equal. apply IH. assumption. Qed.
Lemma ps_nth i a p : nth_error ps i = Some (a, p) -> exists content, nth_error fs i = Some content /\ start a = Some content /\ In p outs /\ ~ In a outs.
Proof.
  intros H. destruct (Forall2_nth _ _ _ _ _ Hin i _ H) as (content & Hc & Hs). exists content. split; [exact Hc|]. split; [exact Hs|].
  split; [apply (in_map snd _ _ (nth_error_In _ _ H))|]. apply Hsep. apply (in_map fst _ _ (nth_error_In _ _ H)).
Qed.

Definition sane (s : dio N) : Prop := grows outs [] (d_log s) /\ forall f w, d_current s = Some (f, w) -> In (w_path w) outs.
Definition mirrors (c : cio N) (s : dio N) : Prop :=
  wf N fs c /\ c_current c = option_map fst (d_current s) /\ c_idx c = d_idx s /\ sane s.

Lemma drop_current_grows (c : option (fio N * writer)) log : (forall f w, c = Some (f, w) -> In (w_path w) outs) -> grows outs log (drop_current faults c log).
Proof.
  intros H. destruct c as [[f w]|]; cbn; [|apply grows_refl]. eapply grows_incl; [|apply drop_grows]. intros q [<-|[]]. eapply H. reflexivity.
Qed.
Lemma outs_incl p : In p outs -> incl [p] outs. Proof. intros H q [<-|[]]. exact H. Qed.

Lemma open_mirror idx c s : mirrors c s ->
  let '(r, s') := dopen idx s in
  grows outs (d_log s) (d_log s') /\
  match r with
  | Ok _ => exists c', copen idx c = Ok c' /\ mirrors c' s'
  | Err e => (copen idx c = Err e \/ ~ nofault (d_log s')) /\ mirrors c s'
  | Panic => copen idx c = Panic /\ sane s'
  end.
Proof.
  intros (Hw & Hc & Hi & Hg & Ho). unfold dio_open, cio_open. rewrite (proj1 Hw).
  destruct (nth_error ps idx) as [[a p]|] eqn:En.
  2:{ split; [apply grows_refl|]. apply nth_error_None in En. rewrite ps_len in En. apply nth_error_None in En. rewrite En. split; [reflexivity|]. split; assumption. }
  destruct (ps_nth idx a p En) as (content & Ef & Es & Hp & Ha). rewrite Ef.
  rewrite (grows_other start outs [] (d_log s) a Hg Ha). change (replay start [] a) with (start a). rewrite Es.
  destruct (build content) as [f|e|] eqn:Eb; cbn [bind].
  - pose proof (new_output_grows start faults cap p (fio_header f) (d_log s)) as NO. destruct (new_output faults cap p (fio_header f) (d_log s)) as [[w|] log'].
    + destruct NO as [G Ew]. cbn [d_log]. apply (grows_incl _ outs) in G; [|apply outs_incl, Hp].
      assert (G2 : grows outs log' (drop_current faults (d_current s) log')) by (apply drop_current_grows, Ho).
      split; [eapply grows_trans; eauto|]. destruct (open_ok N xi checks scaling fs c idx content f Hw Ef Eb) as (os & Hset & Hlo & Hop).
      unfold cio_open in Hop. rewrite (proj1 Hw), Ef, Eb in Hop. cbn [bind] in Hop. rewrite Hop.
      eexists. split; [reflexivity|]. split; [split; [reflexivity|exact Hlo]|]. split; [reflexivity|]. split; [reflexivity|]. split; cbn [d_log d_current].
      * eapply grows_trans; [exact Hg|]. eapply grows_trans; eauto.
      * intros f' w' E. injection E as <- <-. rewrite Ew. exact Hp.
    + destruct NO as [G Hf]. cbn [d_log]. apply (grows_incl _ outs) in G; [|apply outs_incl, Hp]. split; [exact G|]. split; [right; exact Hf|].
      split; [exact Hw|]. split; [exact Hc|]. split; [exact Hi|]. split; [eapply grows_trans; eauto|exact Ho].
  - assert (K : forall log', grows outs (d_log s) log' -> mirrors c (mkDIO (d_current s) (d_idx s) log')).
    { intros log' G. split; [exact Hw|]. split; [exact Hc|]. split; [exact Hi|]. split; [eapply grows_trans; eauto|exact Ho]. }
    destruct (header_of checks content) as [header|].
    + pose proof (new_output_grows start faults cap p header (d_log s)) as NO. destruct (new_output faults cap p header (d_log s)) as [[w|] log'].
      * destruct NO as [G Ew]. cbn [d_log]. pose proof (drop_grows faults w log') as G2. rewrite Ew in G2. pose proof (grows_trans _ _ _ _ G G2) as G3.
        apply (grows_incl _ outs) in G3; [|apply outs_incl, Hp]. split; [exact G3|]. split; [left; reflexivity|]. apply K, G3.
      * destruct NO as [G Hf]. cbn [d_log]. apply (grows_incl _ outs) in G; [|apply outs_incl, Hp]. split; [exact G|]. split; [right; exact Hf|]. apply K, G.
    + split; [apply grows_refl|]. split; [left; reflexivity|]. split; [exact Hw|]. do 2 (split; [assumption|]). split; assumption.
  - split; [apply grows_refl|]. split; [reflexivity|]. split; assumption.
Qed.

Lemma mirrors_hint c s n h : mirrors c s -> mirrors (mkCIO (c_files c) (c_current c) (c_idx c) n h (c_outs c)) s.
Proof. intros (Hw & H). split; [exact Hw|]. exact H. Qed.

(** What the results mean: [B] is the result of the abstract program. *)
Definition agree {A B} (r : res A * dio N) (b : res B) (P : A -> dio N -> B -> Prop) : Prop :=
  sane (snd r) /\
  match fst r with
  | Ok a => exists b', b = Ok b' /\ P a (snd r) b'
  | Err e => b = Err e \/ ~ nofault (d_log (snd r))
  | Panic => b = Panic
  end.
Lemma open_agree idx c s : mirrors c s -> grows outs (d_log s) (d_log (snd (dopen idx s))) /\ agree (dopen idx s) (copen idx c) (fun _ s' c' => mirrors c' s').
Proof.
  intros Hm. pose proof (open_mirror idx c s Hm) as H. destruct (dopen idx s) as [[u|e|] s']; destruct H as [G H]; (split; [exact G|]); unfold agree; cbn [fst snd].
  - destruct H as (c' & E & Hm'). split; [apply Hm'|]. eauto.
  - destruct H as [H Hm']. split; [apply Hm'|exact H].
  - destruct H as [H Hs]. split; [exact Hs|exact H].
Qed.

Lemma init_loop_agree : forall n idx c s, mirrors c s ->
  let r := dio_init_loop start faults cap xml checks scaling ps idx n s in
  grows outs (d_log s) (d_log (snd r)) /\ agree r (cio_init_loop xi checks scaling idx n c) (fun _ s' c' => mirrors c' s').
Proof.
  induction n as [|n IH]; intros idx c s Hm; cbn [dio_init_loop cio_init_loop].
  - split; [apply grows_refl|]. split; [apply Hm|]. cbn [fst snd]. eauto.
  - destruct (open_agree idx c s Hm) as [G [Hs H]]. destruct (dopen idx s) as [[u|e|] s1]; cbn [fst snd] in *.
    + destruct H as (c1 & E1 & Hm1). rewrite E1. cbn [bind].
      assert (Hcur : exists f, c_current c1 = Some f). { destruct (open_inv N xi checks scaling fs c idx c1 (proj1 Hm) E1) as (_ & ? & f & _ & _ & Hf & _). eauto. }
      destruct Hcur as [f Hf]. rewrite Hf.
      pose proof (mirrors_hint c1 s1 (c_nread c1) (combine_size_hints (c_hint c1) (fio_size_hint f)) Hm1) as Hm1'. rewrite Hf in Hm1'.
      destruct (IH (S idx) _ s1 Hm1') as [G2 IH2]. split; [eapply grows_trans; eauto|exact IH2].
    + split; [exact G|]. split; [exact Hs|]. cbn [fst snd]. destruct H as [H|H]; [rewrite H; left; reflexivity|auto].
    + split; [exact G|]. split; [exact Hs|]. cbn [fst snd]. rewrite H. reflexivity.
Qed.
Lemma new_agree : let r := dio_new start faults cap xml checks scaling ps [] in
  agree r (cio_new xi checks scaling fs) (fun _ s' c' => mirrors c' s').
Proof.
  unfold dio_new, cio_new, cio_init. cbn [c_files]. rewrite ps_len.
  assert (Hm : mirrors (mkCIO fs None 0 0 (0%N, Some 0%N) (repeat [] (length fs))) (mkDIO None 0 [])).
  { split; [split; [reflexivity|apply repeat_length]|]. split; [reflexivity|]. split; [reflexivity|]. split; [apply grows_refl|discriminate]. }
  destruct (length fs =? 0); [split; [apply Hm|]; cbn [fst snd]; eauto|].
  destruct (init_loop_agree (length fs) 0 _ _ Hm) as [G [Hs H]]. destruct (dio_init_loop _ _ _ _ _ _ _ 0 _ _) as [[u|e|] s1]; cbn [fst snd] in *.
  - destruct H as (c1 & E1 & Hm1). rewrite E1. cbn [bind]. apply open_agree, Hm1.
  - split; [exact Hs|]. cbn [fst snd]. destruct H as [H|H]; [rewrite H; left; reflexivity|auto].
  - split; [exact Hs|]. cbn [fst snd]. rewrite H. reflexivity.
Qed.
Lemma sane_same c i j log (f g : fio N) w : sane (mkDIO (Some (f, w)) i log) -> c = Some (g, w) -> sane (mkDIO c j log).
Proof. intros [H1 H2] ->. split; [exact H1|]. intros f' w' E. injection E as _ <-. eapply H2. reflexivity. Qed.

(** *** Reading *)
Notation dnext := (dio_next start faults cap double show xml checks scaling ps).
Notation cnext := (cio_next double show xi checks scaling).
Lemma next_agree : forall fuel c s, mirrors c s ->
  let r := dnext fuel s in
  grows outs (d_log s) (d_log (snd r)) /\ sane (snd r) /\
  match fst r with
  | Ok None => exists c', cnext fuel c = Finished c' /\ mirrors c' (snd r)
  | Ok (Some (inl t)) => exists c', cnext fuel c = Item t c' /\ mirrors c' (snd r)
  | Ok (Some (inr e)) => (exists c', cnext fuel c = ModelIO.Failed e c' /\ mirrors c' (snd r)) \/ ~ nofault (d_log (snd r))
  | Err _ => False
  | Panic => cnext fuel c = ModelIO.Panicked
  end.
Proof.
  induction fuel as [|fuel IH]; intros c s Hm; pose proof Hm as (Hw & Hc & Hi & Hs); cbn [dio_next cio_next]; rewrite (proj1 Hw), Hi, ps_len, Hc.
  - destruct (d_current s) as [[f w]|] eqn:Ec; cbn [option_map fst].
    + destruct (fio_next double show checks f) as [f'|t f'|e f'|]; cbn [fst snd d_log].
      * destruct (d_idx s + 1 =? length fs); cbn [fst snd d_log]; (split; [apply grows_refl|]); (split; [destruct Hs as [H1 H2]; split; [exact H1|]; cbn; intros g v E; try (injection E as _ <-); eapply H2; eauto|]); eauto.
        eexists. split; [reflexivity|]. split; [split; [reflexivity|apply Hw]|]. repeat split; cbn; auto; [apply Hs|]. intros g v E. injection E as _ <-. eapply Hs; eauto.
      * split; [apply grows_refl|]. split; [destruct Hs as [H1 H2]; split; [exact H1|]; cbn; intros g v E; injection E as _ <-; eapply H2; eauto|].
        eexists. split; [reflexivity|]. split; [split; [reflexivity|apply Hw]|]. repeat split; cbn; auto; [apply Hs|]. intros g v E. injection E as _ <-. eapply Hs; eauto.
      * split; [apply grows_refl|]. split; [destruct Hs as [H1 H2]; split; [exact H1|]; cbn; intros g v E; injection E as _ <-; eapply H2; eauto|].
        left. eexists. split; [reflexivity|]. split; [split; [reflexivity|apply Hw]|]. repeat split; cbn; auto; [apply Hs|]. intros g v E. injection E as _ <-. eapply Hs; eauto.
      * split; [apply grows_refl|]. split; [exact Hs|]. reflexivity.
    + destruct (length fs =? 0); cbn [fst snd]; (split; [apply grows_refl|]); (split; [exact Hs|]); eauto.
  - assert (Open : forall idx,
      let r := match dopen idx s with (Ok _, s') => dnext fuel s' | (Err e, s') => (Ok (Some (inr e)), s') | (Panic, s') => (Panic, s') end in
      let a := match copen idx c with Ok c' => cnext fuel c' | Err e => ModelIO.Failed e c | Panic => ModelIO.Panicked end in
      grows outs (d_log s) (d_log (snd r)) /\ sane (snd r) /\
      match fst r with
      | Ok None => exists c', a = Finished c' /\ mirrors c' (snd r)
      | Ok (Some (inl t)) => exists c', a = Item t c' /\ mirrors c' (snd r)
      | Ok (Some (inr e)) => (exists c', a = ModelIO.Failed e c' /\ mirrors c' (snd r)) \/ ~ nofault (d_log (snd r))
      | Err _ => False
      | Panic => a = ModelIO.Panicked
      end).
    { intros idx. pose proof (open_mirror idx c s Hm) as H. destruct (dopen idx s) as [[u|e|] s1]; destruct H as [G H].
      - destruct H as (c1 & E1 & Hm1). rewrite E1. destruct (IH c1 s1 Hm1) as (G2 & H2 & H3). split; [eapply grows_trans; eauto|]. split; [exact H2|exact H3].
      - destruct H as [H Hm1]. cbn. split; [exact G|]. split; [apply Hm1|]. destruct H as [H|H]; [left|right; exact H]. rewrite H. eauto.
      - destruct H as [H Hs1]. rewrite H. cbn. split; [exact G|]. split; [exact Hs1|]. reflexivity. }
    destruct (d_current s) as [[f w]|] eqn:Ec; cbn [option_map fst].
    + destruct (fio_next double show checks f) as [f'|t f'|e f'|]; cbn [fst snd d_log].
      * destruct (d_idx s + 1 =? length fs); [|apply Open]. cbn [fst snd d_log]. split; [apply grows_refl|]. split; [destruct Hs as [H1 H2]; split; [exact H1|]; cbn; intros g v E; injection E as _ <-; eapply H2; eauto|].
        eexists. split; [reflexivity|]. split; [split; [reflexivity|apply Hw]|]. repeat split; cbn; auto; [apply Hs|]. intros g v E. injection E as _ <-. eapply Hs; eauto.
      * split; [apply grows_refl|]. split; [destruct Hs as [H1 H2]; split; [exact H1|]; cbn; intros g v E; injection E as _ <-; eapply H2; eauto|].
        eexists. split; [reflexivity|]. split; [split; [reflexivity|apply Hw]|]. repeat split; cbn; auto; [apply Hs|]. intros g v E. injection E as _ <-. eapply Hs; eauto.
      * split; [apply grows_refl|]. split; [destruct Hs as [H1 H2]; split; [exact H1|]; cbn; intros g v E; injection E as _ <-; eapply H2; eauto|].
        left. eexists. split; [reflexivity|]. split; [split; [reflexivity|apply Hw]|]. repeat split; cbn; auto; [apply Hs|]. intros g v E. injection E as _ <-. eapply Hs; eauto.
      * split; [apply grows_refl|]. split; [exact Hs|]. reflexivity.
    + destruct (length fs =? 0); [|apply Open]. cbn [fst snd]. split; [apply grows_refl|]. split; [exact Hs|]. eauto.
Qed.

Lemma read_agree : forall fuel c s, mirrors c s ->
  let r := dio_read_all start faults cap double show xml checks scaling ps fuel s in
  grows outs (d_log s) (d_log (snd r)) /\ sane (snd r) /\
  match fst r with
  | None => read_all double show xml checks scaling fuel c = None
  | Some l => (exists c', read_all double show xml checks scaling fuel c = Some (l, c') /\ mirrors c' (snd r)) \/
      (~ nofault (d_log (snd r)) /\ exists l0 e, l = map inl l0 ++ [inr e])
  end.
Proof.
  induction fuel as [|fuel IH]; intros c s Hm; cbn [dio_read_all read_all]. { split; [apply grows_refl|]. split; [apply Hm|reflexivity]. }
  rewrite (fuel_const N fs c (proj1 Hm)), <- ps_len.
  destruct (next_agree (S (length ps)) c s Hm) as (G & Hs & H). destruct (dnext (S (length ps)) s) as [[[[t|e]|]|e|] s1]; cbn [fst snd] in *.
  - destruct H as (c1 & E1 & Hm1). rewrite E1. pose proof Hm1 as (_ & Hc & _). rewrite Hc. destruct (d_current s1) as [[f w]|] eqn:Ec; cbn [option_map fst].
    + destruct (IH c1 s1 Hm1) as (G2 & H2 & H3). destruct (dio_read_all _ _ _ _ _ _ _ _ _ fuel s1) as [[l|] s2]; cbn [fst snd] in *; (split; [eapply grows_trans; eauto|]); (split; [exact H2|]).
      * destruct H3 as [(c2 & E2 & Hm2)|(Hf & l0 & e & ->)]; [left|right].
        -- rewrite E2. eauto.
        -- split; [exact Hf|]. exists (record_of f t :: l0), e. reflexivity.
      * rewrite H3. reflexivity.
    + split; [exact G|]. split; [exact Hs|]. reflexivity.
  - split; [exact G|]. split; [exact Hs|]. destruct H as [(c1 & E1 & Hm1)|Hf]; [left; rewrite E1; eauto|right]. split; [exact Hf|]. exists [], e. reflexivity.
  - split; [exact G|]. split; [exact Hs|]. destruct H as (c1 & E1 & Hm1). left. rewrite E1. eauto.
  - contradiction.
  - split; [exact G|]. split; [exact Hs|]. rewrite H. reflexivity.
Qed.

(** *** Writing *)
Lemma write_agree bytes g c s f w : mirrors c s -> d_current s = Some (f, w) ->
  let r := dio_write faults cap bytes g s in
  grows outs (d_log s) (d_log (snd r)) /\ mirrors (cio_write bytes g c) (snd r) /\
  match fst r with Ok _ => True | Err _ => ~ nofault (d_log (snd r)) | Panic => False end.
Proof.
  intros Hm Ec. pose proof Hm as (Hw & Hc & Hi & Hs). unfold dio_write. rewrite Ec.
  pose proof (write_all_grows faults cap bytes w (d_log s)) as W. destruct (write_all faults cap bytes w (d_log s)) as [[ok w'] log']. destruct W as (W1 & W2 & W3).
  cbn [snd d_log fst]. apply (grows_incl _ outs) in W2; [|apply outs_incl; eapply Hs; eauto]. split; [exact W2|]. split.
  - split; [apply append_wf, Hw|]. split; [reflexivity|]. split; [exact Hi|]. split; cbn [d_log d_current]; [eapply grows_trans; [apply Hs|exact W2]|].
    intros f' v E. injection E as _ <-. rewrite W1. eapply Hs; eauto.
  - destruct ok; auto.
Qed.

Notation cupd := (cio_update_file double show checks mw names).
Lemma update_file_agree : forall ws c s, mirrors c s ->
  let r := dio_update_file faults cap double show checks mw names ws s in
  grows outs (d_log s) (d_log (snd r)) /\ agree r (cupd ws c) (fun rest s' b => fst b = rest /\ mirrors (snd b) s').
Proof.
  induction ws as [|x ws IH]; intros c s Hm; pose proof Hm as (Hw & Hc & Hi & Hs); cbn [dio_update_file cio_update_file].
  - split; [apply grows_refl|]. split; [exact Hs|]. cbn [fst snd]. eexists. split; [reflexivity|]. auto.
  - rewrite Hc. destruct (d_current s) as [[f w]|] eqn:Ec; cbn [option_map fst].
    2:{ split; [apply grows_refl|]. split; [exact Hs|]. reflexivity. }
    destruct (fio_update double show checks mw names x f) as [[[t|] g]|e|]; cbn [bind].
    + destruct (write_agree t g c s f w Hm Ec) as (G & Hm1 & H). destruct (dio_write faults cap t g s) as [[u|e|] s1]; cbn [fst snd] in *; [|split; [exact G|]; split; [apply Hm1|]; cbn [fst snd]; auto|contradiction].
      destruct (IH _ s1 Hm1) as [G2 H2]. split; [eapply grows_trans; eauto|exact H2].
    + split; [apply grows_refl|]. split; [destruct Hs as [H1 H2]; split; [exact H1|]; cbn; intros g' v E; injection E as _ <-; eapply H2; eauto|].
      cbn. eexists. split; [reflexivity|]. split; [reflexivity|]. split; [apply append_wf, Hw|]. repeat split; cbn; auto; [apply Hs|]. intros g' v E. injection E as _ <-. eapply Hs; eauto.
    + split; [apply grows_refl|]. split; [exact Hs|]. cbn [fst snd]. auto.
    + split; [apply grows_refl|]. split; [exact Hs|]. reflexivity.
Qed.
Lemma write_nil_mirrors c s f w : mirrors c s -> d_current s = Some (f, w) -> mirrors (cio_write [] f c) s.
Proof.
  intros (Hw & Hc & Hi & Hs) Ec. split; [apply append_wf, Hw|]. split; [cbn; rewrite Ec; reflexivity|]. split; [exact Hi|exact Hs].
Qed.
Lemma update_files_agree : forall n idx ws c s, mirrors c s ->
  let r := dio_update_files start faults cap double show xml checks mw names scaling ps idx n ws s in
  grows outs (d_log s) (d_log (snd r)) /\
  agree r (cio_update_files double show xi checks mw names scaling idx n ws c) (fun rest s' b => fst b = rest /\ mirrors (snd b) s').
Proof.
  induction n as [|n IH]; intros idx ws c s Hm; cbn [dio_update_files cio_update_files].
  - split; [apply grows_refl|]. split; [apply Hm|]. cbn [fst snd]. eexists. split; [reflexivity|]. auto.
  - destruct (open_agree idx c s Hm) as [G [Hs H]]. destruct (dopen idx s) as [[u|e|] s1]; cbn [fst snd] in *.
    2:{ split; [exact G|]. split; [exact Hs|]. cbn [fst snd]. destruct H as [H|H]; [rewrite H; left; reflexivity|auto]. }
    2:{ split; [exact G|]. split; [exact Hs|]. cbn [fst snd]. rewrite H. reflexivity. }
    destruct H as (c1 & E1 & Hm1). rewrite E1. cbn [bind].
    destruct (update_file_agree ws c1 s1 Hm1) as [G2 [Hs2 H2]]. destruct (dio_update_file faults cap double show checks mw names ws s1) as [[rest|e|] s2]; cbn [fst snd] in *.
    2:{ split; [eapply grows_trans; eauto|]. split; [exact Hs2|]. cbn [fst snd]. destruct H2 as [H2|H2]; [rewrite H2; left; reflexivity|auto]. }
    2:{ split; [eapply grows_trans; eauto|]. split; [exact Hs2|]. cbn [fst snd]. rewrite H2. reflexivity. }
    destruct H2 as ([rest' c2] & E2 & Er & Hm2). cbn [fst snd] in *. subst rest'. rewrite E2. cbn [bind].
    pose proof (grows_trans _ _ _ _ G G2) as G3. pose proof Hm2 as (_ & Hc2 & _). rewrite Hc2.
    destruct (d_current s2) as [[f w]|] eqn:Ec; cbn [option_map fst].
    2:{ split; [exact G3|]. split; [exact Hs2|]. reflexivity. }
    destruct f as [r|r|r scale].
    + destruct (IH (S idx) rest _ s2 (write_nil_mirrors _ _ _ _ Hm2 Ec)) as [G4 H4]. split; [eapply grows_trans; eauto|exact H4].
    + destruct (write_agree (@fio_finish N (IOLhef r)) (IOLhef r) c2 s2 _ w Hm2 Ec) as (G4 & Hm4 & H4). destruct (dio_write faults cap _ _ s2) as [[v|e|] s3]; cbn [fst snd] in *.
      * destruct (IH (S idx) rest _ s3 Hm4) as [G5 H5]. split; [eapply grows_trans; [exact G3|]; eapply grows_trans; eauto|exact H5].
      * split; [eapply grows_trans; eauto|]. split; [apply Hm4|]. cbn [fst snd]. auto.
      * contradiction.
    + destruct (IH (S idx) rest _ s2 (write_nil_mirrors _ _ _ _ Hm2 Ec)) as [G4 H4]. split; [eapply grows_trans; eauto|exact H4].
Qed.
Lemma rewind_mirrors c s : mirrors c s -> mirrors (cio_rewind c) (dio_rewind faults s) /\ grows outs (d_log s) (d_log (dio_rewind faults s)).
Proof.
  intros (Hw & Hc & Hi & Hs). assert (G : grows outs (d_log s) (d_log (dio_rewind faults s))) by (apply drop_current_grows, Hs).
  split; [|exact G]. split; [exact Hw|]. split; [reflexivity|]. split; [exact Hi|]. split; [|discriminate]. eapply grows_trans; [apply Hs|exact G].
Qed.
Lemma update_all_agree ws c s : mirrors c s ->
  let r := dio_update_all start faults cap double show xml checks mw names scaling ps ws s in
  grows outs (d_log s) (d_log (snd r)) /\
  agree r (cio_update_all double show xi checks mw names scaling ws c) (fun _ s' b => mirrors (snd b) s').
Proof.
  intros Hm. unfold dio_update_all, cio_update_all. rewrite (proj1 (proj1 Hm)), <- ps_len. destruct (rewind_mirrors c s Hm) as [Hm1 G].
  destruct (update_files_agree (length ps) 0 ws _ _ Hm1) as [G2 [Hs H]]. destruct (dio_update_files _ _ _ _ _ _ _ _ _ _ _ 0 _ _ _) as [[rest|e|] s1]; cbn [fst snd] in *;
    (split; [eapply grows_trans; eauto|]); (split; [exact Hs|]); cbn [fst snd].
  - destruct H as ([rest' c'] & E & _ & Hm'). rewrite E. cbn [bind snd] in *. eexists. split; [reflexivity|]. exact Hm'.
  - destruct H as [H|H]; [rewrite H; left; reflexivity|auto].
  - rewrite H. reflexivity.
Qed.
End Mirror.
