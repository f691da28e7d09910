(** The invariant of buffered writers. *)
From Verif Require Import Base Num ModelEvent ModelText ModelHepMC ModelLHEF ModelStripper ModelIO ModelMain ModelFS SpecFS FSProofs.

Section Writers.
Context (start : disk) (faults : nat -> option nat) (cap : nat).
(** the output files and their complete contents *)
Context (outs : list path) (target : path -> text).
Notation nofault := (no_failure faults).
Notation has := (has start).

Definition good (log : list syscall) (p : path) : Prop := replay start log p = start p \/ exists L, has (target p) L log p.
(** at each moment *)
Definition safe (log : list syscall) : Prop := forall k p, In p outs -> good (firstn k log) p.
Lemma safe_nil : safe [].
Proof. intros k p _. rewrite firstn_nil. left. reflexivity. Qed.
Lemma safe_snoc log c p : safe log -> In p outs -> touches p c -> good (log ++ [c]) p -> safe (log ++ [c]).
Proof.
  intros H Hp Hc Hg k q Hq. destruct (Nat.le_gt_cases k (length log)) as [Hk|Hk].
  - rewrite firstn_app. replace (k - length log) with 0 by lia. cbn [firstn]. rewrite app_nil_r. apply H, Hq.
  - rewrite firstn_all2 by (rewrite app_length; cbn; lia). destruct (Nat.eq_dec q p) as [->|Hn]; [exact Hg|].
    pose proof (H (length log) q Hq) as Hl. rewrite firstn_all in Hl. unfold good, FSProofs.has in *.
    rewrite replay_snoc, (perform_other _ p q c Hc Hn). exact Hl.
Qed.
Lemma safe_now log p : safe log -> In p outs -> good log p.
Proof. intros H Hp. specialize (H (length log) p Hp). rewrite firstn_all in H. exact H. Qed.

(** Bytes [T] were passed to the writer. *)
Definition streamed (w : writer) (T : text) : Prop :=
  In (w_path w) outs /\ (exists rest, target (w_path w) = T ++ rest) /\ length T = w_offset w + length (w_buf w) /\ w_buf w = skipn (w_offset w) T.
Definition strong (w : writer) (T : text) (log : list syscall) : Prop :=
  streamed w T /\ length (w_buf w) <= cap /\ exists L, has (target (w_path w)) L log (w_path w) /\ w_offset w <= L.
Definition weak (w : writer) (log : list syscall) : Prop :=
  (exists T, streamed w T) /\ exists L, has (target (w_path w)) L log (w_path w) /\ (w_offset w <= L \/ w_buf w = []).
Lemma strong_weak w T log : strong w T log -> weak w log.
Proof. intros (H & _ & L & HL & Ho). split; [eauto|]. exists L. auto. Qed.
(** a file that was closed *)
Definition gone (T : text) (log : list syscall) (p : path) : Prop :=
  exists L, has (target p) L log p /\ length T <= L + cap /\ (nofault log -> length T <= L).

Lemma strong_grows w T qs a b : grows qs a b -> ~ In (w_path w) qs -> strong w T a -> strong w T b.
Proof. intros H Hn (H1 & H2 & L & H3 & H4). split; [exact H1|]. split; [exact H2|]. exists L. split; [|exact H4]. eapply has_grows; eauto. Qed.
Lemma weak_grows w qs a b : grows qs a b -> ~ In (w_path w) qs -> weak w a -> weak w b.
Proof. intros H Hn (H1 & L & H3 & H4). split; [exact H1|]. exists L. split; [|exact H4]. eapply has_grows; eauto. Qed.
Lemma gone_grows T qs a b p : grows qs a b -> ~ In p qs -> gone T a p -> gone T b p.
Proof.
  intros H Hn (L & H1 & H2 & H3). exists L. split; [eapply has_grows; eauto|]. split; [exact H2|]. intros Hf. apply H3. eapply grows_nofault; eauto.
Qed.

(** A write at the right place *)
Lemma write_spec p off bytes log T L : let o := target p in In p outs -> safe log -> has o L log p -> off <= L ->
  (exists rest, o = T ++ bytes ++ rest) -> length T = off ->
  let '(ok, n, log') := do_write faults p off bytes log in
  grows [p] log log' /\ safe log' /\ n <= length bytes /\ has o (max L (off + n)) log' p /\
  (ok = true -> n = length bytes) /\ (ok = false -> ~ nofault log').
Proof.
  intros o Hp Hs HL Ho (rest & Hr) HT.
  assert (Hb : bytes = firstn (length bytes) (skipn off o)).
  { rewrite Hr, <- HT, skipn_app, skipn_all, Nat.sub_diag. cbn [skipn app]. rewrite firstn_app, firstn_all, Nat.sub_diag. cbn. rewrite app_nil_r. reflexivity. }
  assert (Hlen : off + length bytes <= length o) by (rewrite Hr, !app_length; unfold text in *; lia).
  pose proof (do_write_spec start faults p off bytes log o L HL Ho Hb Hlen) as H.
  destruct (do_write faults p off bytes log) as [[ok n] log']. destruct H as (H1 & H2 & H3 & H4 & H5 & c & ->).
  split; [exact H1|]. split; [|auto]. destruct H1 as (l & El & Hl). apply app_inv_head in El. subst l.
  inversion Hl as [|? ? (q & Hq & Hc) _]; subst. destruct Hq as [<-|[]]. apply (safe_snoc log c p Hs Hp Hc). right. eexists. exact H3.
Qed.

Lemma skipn_app_exact (a b : text) n : length a = n -> skipn n (a ++ b) = b.
Proof. intros <-. rewrite skipn_app, skipn_all, Nat.sub_diag. reflexivity. Qed.
Lemma firstn_len (l : text) n : n <= length l -> length (firstn n l) = n.
Proof. intros H. rewrite firstn_length. unfold text in *; lia. Qed.

Lemma flush_spec w log : safe log ->
  let '(ok, w', log') := flush_buf faults w log in
  w_path w' = w_path w /\
  (weak w log -> grows [w_path w] log log' /\ safe log' /\ exists L, has (target (w_path w)) L log' (w_path w)) /\
  (forall T, strong w T log -> strong w' T log' /\ (ok = true -> w_buf w' = []) /\ (ok = false -> ~ nofault log')).
Proof.
  intros Hs. unfold flush_buf. destruct (w_buf w) as [|b0 buf0] eqn:Eb.
  { split; [reflexivity|]. split; [intros (_ & L & HL & _); split; [apply grows_refl|]; split; [exact Hs|eauto]|]. intros T HT. split; [exact HT|]. split; [auto|discriminate]. }
  rewrite <- Eb.
  assert (K : forall T L, streamed w T -> has (target (w_path w)) L log (w_path w) -> w_offset w <= L ->
    let '(ok, n, log') := do_write faults (w_path w) (w_offset w) (w_buf w) log in
    grows [w_path w] log log' /\ safe log' /\ n <= length (w_buf w) /\ has (target (w_path w)) (max L (w_offset w + n)) log' (w_path w) /\
    (ok = true -> n = length (w_buf w)) /\ (ok = false -> ~ nofault log')).
  { intros T L (Hp & (rest & Hr) & Hl & Hb) HL Ho. apply (write_spec _ _ _ _ (firstn (w_offset w) T)); auto.
    - exists rest. rewrite Hr, Hb, app_assoc, firstn_skipn. reflexivity.
    - apply firstn_len. unfold text in *; lia. }
  destruct (do_write faults (w_path w) (w_offset w) (w_buf w) log) as [[ok n] log'].
  split; [reflexivity|]. split.
  - intros ((T & HT) & L & HL & [Ho|Hno]); [|congruence]. destruct (K T L HT HL Ho) as (H1 & H2 & _ & H3 & _). eauto.
  - intros T (HT & Hcap & L & HL & Ho). destruct (K T L HT HL Ho) as (H1 & H2 & H3 & H4 & H5 & H6).
    destruct HT as (Hp & Hr & Hl & Hb). split; [|split; [|exact H6]].
    + split; [|split]; cbn [w_path w_offset w_buf].
      * split; [exact Hp|]. split; [exact Hr|]. cbn [w_path w_offset w_buf]. split; [rewrite skipn_length; unfold text in *; lia|]. rewrite Hb, <- skipn_plus. reflexivity.
      * rewrite skipn_length. unfold text in *; lia.
      * exists (max L (w_offset w + n)). split; [exact H4|lia].
    + intros E. cbn [w_buf]. rewrite (H5 E), skipn_all. reflexivity.
Qed.

Lemma drop_weak w log : safe log -> weak w log -> let log' := drop_writer faults w log in
  grows [w_path w] log log' /\ safe log' /\ exists L, has (target (w_path w)) L log' (w_path w).
Proof.
  intros Hs Hw. unfold drop_writer. pose proof (flush_spec w log Hs) as H. destruct (flush_buf faults w log) as [[ok w'] log'].
  destruct H as (_ & H & _). cbn [snd]. auto.
Qed.
Lemma drop_strong w T log : safe log -> strong w T log -> gone T (drop_writer faults w log) (w_path w).
Proof.
  intros Hs Hw. unfold drop_writer. pose proof (flush_spec w log Hs) as H. destruct (flush_buf faults w log) as [[ok w'] log'].
  destruct H as (Hp & _ & H). cbn [snd]. destruct (H T Hw) as (((_ & _ & Hl & _) & Hc & L & HL & Ho) & H1 & H2). rewrite Hp in HL.
  exists L. split; [exact HL|]. split; [lia|]. intros Hf. destruct ok; [|exfalso; apply H2; auto]. rewrite (H1 eq_refl) in Hl. cbn in Hl. lia.
Qed.
(** a file as it was created: nothing in the buffer or everything *)
Definition fresh (w : writer) (log : list syscall) : Prop :=
  (exists T, streamed w T) /\ (w_offset w = 0 \/ w_buf w = []) /\ exists L, has (target (w_path w)) L log (w_path w).
Lemma fresh_weak w log : fresh w log -> weak w log.
Proof. intros (H & Ho & L & HL). split; [exact H|]. exists L. split; [exact HL|]. destruct Ho as [->|Ho]; [left; lia|auto]. Qed.
Lemma fresh_has w log log' L : fresh w log -> has (target (w_path w)) L log' (w_path w) -> fresh w log'.
Proof. intros (H & Ho & _) HL. split; [exact H|]. split; [exact Ho|]. eauto. Qed.

Lemma write_all_spec bytes w T log : safe log -> strong w T log -> (exists rest, target (w_path w) = T ++ bytes ++ rest) ->
  let '(ok, w', log') := write_all faults cap bytes w log in
  w_path w' = w_path w /\ grows [w_path w] log log' /\ safe log' /\
  (ok = true -> strong w' (T ++ bytes) log' /\ (w_offset w = 0 -> w_buf w = [] -> w_offset w' = 0 \/ w_buf w' = [])) /\
  (ok = false -> ~ nofault log' /\ exists T', strong w' T' log').
Proof.
  intros Hs Hw (rest & Hr). unfold write_all.
  assert (Push : forall w log, w_path w = w_path w -> strong w T log -> (exists rest, target (w_path w) = T ++ bytes ++ rest) ->
    length (w_buf w) + length bytes <= cap -> strong (push_buf bytes w) (T ++ bytes) log).
  { intros v l _ ((Hp & _ & Hl & Hb) & _ & L & HL & Ho) (r & Hr') Hc. split; [|split]; cbn [push_buf w_path w_offset w_buf].
    - split; [exact Hp|]. cbn [push_buf w_path w_offset w_buf]. split; [exists r; rewrite <- app_assoc; exact Hr'|]. split; [rewrite !app_length; unfold text in *; lia|].
      rewrite skipn_app. replace (w_offset v - length T) with 0 by (unfold text in *; lia). cbn [skipn]. congruence.
    - rewrite app_length. unfold text in *; lia.
    - eauto. }
  destruct (Nat.ltb_spec (length bytes) (cap - length (w_buf w))) as [Hlt|Hge].
  { split; [reflexivity|]. split; [apply grows_refl|]. split; [exact Hs|]. split; [|discriminate]. intros _. split; [|intros Ho _; left; exact Ho].
    apply Push; eauto. unfold text in *; lia. }
  pose proof (proj1 (proj2 Hw)) as Hcap.
  assert (F : exists ok w1 log1, (if cap - length (w_buf w) <? length bytes then flush_buf faults w log else (true, w, log)) = (ok, w1, log1) /\
    w_path w1 = w_path w /\ grows [w_path w] log log1 /\ safe log1 /\ strong w1 T log1 /\ (ok = false -> ~ nofault log1) /\
    (ok = true -> (w_buf w1 = [] \/ length (w_buf w1) + length bytes = cap) /\ (w_offset w = 0 -> w_buf w = [] -> w1 = w))).
  { destruct (Nat.ltb_spec (cap - length (w_buf w)) (length bytes)) as [H|H].
    - pose proof (flush_spec w log Hs) as F. assert (En : w_buf w = [] -> flush_buf faults w log = (true, w, log)) by (intros E; unfold flush_buf; rewrite E; reflexivity).
      destruct (flush_buf faults w log) as [[ok w1] log1]. destruct F as (F1 & F2 & F3).
      destruct (F2 (strong_weak _ _ _ Hw)) as (F4 & F5 & _). destruct (F3 T Hw) as (F6 & F7 & F8). exists ok, w1, log1. do 6 (split; [auto|]). intros Hok. split; [auto|].
      intros _ E. specialize (En E). congruence.
    - exists true, w, log. split; [reflexivity|]. split; [reflexivity|]. split; [apply grows_refl|]. do 2 (split; [assumption|]). split; [discriminate|].
      intros _. split; [right; unfold text in *; lia|reflexivity]. }
  destruct F as (ok & w1 & log1 & -> & Ep & Hg & Hs1 & Hw1 & Hf & Hok).
  destruct ok; cbn [negb].
  2:{ split; [exact Ep|]. split; [exact Hg|]. split; [exact Hs1|]. split; [discriminate|]. intros _. split; [auto|]. eauto. }
  clear Hf. destruct (Hok eq_refl) as [Hb1 Hsame]. clear Hok.
  destruct (Nat.leb_spec cap (length bytes)) as [Hbig|Hsmall].
  - (* written directly *)
    assert (Hemp : w_buf w1 = [] ).
    { destruct Hb1 as [E|E]; [exact E|]. destruct (w_buf w1); [reflexivity|]. cbn in E. unfold text in *; lia. }
    pose proof Hw1 as ((Hp1 & Hr1 & Hl1 & Hbuf1) & Hc1 & L & HL & Ho).
    rewrite Hemp in Hl1. cbn [length] in Hl1. rewrite Nat.add_0_r in Hl1.
    pose proof (write_spec (w_path w1) (w_offset w1) bytes log1 T L Hp1 Hs1 HL Ho) as W. rewrite Ep in W, HL, Hp1, Hr1.
    specialize (W (ex_intro _ rest Hr) Hl1). rewrite Ep.
    destruct (do_write faults (w_path w) (w_offset w1) bytes log1) as [[ok n] log2]. destruct W as (W1 & W2 & W3 & W4 & W5 & W6).
    split; [reflexivity|]. split; [eapply grows_trans; eauto|]. split; [exact W2|].
    assert (St : strong (mkWriter (w_path w) (w_offset w1 + n) (w_buf w1)) (T ++ firstn n bytes) log2).
    { rewrite Hemp. split; [|split]; cbn [w_path w_offset w_buf].
      - split; [exact Hp1|]. cbn [w_path w_offset w_buf]. split.
        + exists (skipn n bytes ++ rest). rewrite <- app_assoc, (app_assoc (firstn n bytes)), firstn_skipn. exact Hr.
        + split; [rewrite app_length, (firstn_len _ _ W3); cbn; unfold text in *; lia|].
          rewrite skipn_all2; [reflexivity|]. rewrite app_length, (firstn_len _ _ W3). unfold text in *; lia.
      - cbn. lia.
      - exists (max L (w_offset w1 + n)). split; [exact W4|lia]. }
    split.
    + intros E. rewrite (W5 E) in St at 2. rewrite firstn_all in St. split; [rewrite (W5 E) in *; exact St|]. intros _ _. right. exact Hemp.
    + intros E. split; [auto|]. eauto.
  - split; [exact Ep|]. split; [exact Hg|]. split; [exact Hs1|]. split; [|discriminate]. intros _. split.
    + apply Push; [reflexivity|exact Hw1|rewrite Ep; eauto|]. destruct Hb1 as [->|E]; cbn; unfold text in *; lia.
    + intros Ho E. left. cbn. rewrite (Hsame Ho E). exact Ho.
Qed.

(** A new output file *)
Lemma new_output_spec p header log : In p outs -> safe log -> (exists rest, target p = header ++ rest) ->
  let '(o, log') := new_output faults cap p header log in
  grows [p] log log' /\ safe log' /\
  (o = None -> ~ nofault log' /\ (replay start log' p = replay start log p \/ exists L, has (target p) L log' p)) /\
  (forall w, o = Some w -> w_path w = p /\ strong w header log' /\ fresh w log').
Proof.
  intros Hp Hs Hh. unfold new_output. pose proof (do_create_spec start faults p log) as C. destruct (do_create faults p log) as [ok log1].
  destruct C as (G1 & [(-> & E1 & El)|(-> & El & Hf)]); cbn [negb].
  - assert (H0 : has (target p) 0 log1 p) by (split; [lia|exact E1]).
    assert (S1 : safe log1). { subst log1. apply (safe_snoc _ _ p); auto; [reflexivity|]. right. eauto. }
    assert (W0 : strong (mkWriter p 0 []) [] log1).
    { split; [|split]; cbn; [|lia|eauto]. split; [exact Hp|]. cbn. split; [eauto|]. split; reflexivity. }
    pose proof (write_all_spec header _ [] log1 S1 W0 Hh) as W. destruct (write_all faults cap header _ log1) as [[ok w] log2]. cbn [w_path w_offset w_buf] in W.
    destruct W as (W1 & W2 & W3 & W4 & W5). destruct ok; cbn [negb].
    + split; [eapply grows_trans; eauto|]. split; [exact W3|]. split; [discriminate|]. intros v E. injection E as <-.
      destruct (W4 eq_refl) as [W6 W7]. split; [exact W1|]. split; [exact W6|]. destruct W6 as (H1 & H2 & L & HL & _). split; [eauto|]. split; [apply W7; reflexivity|]. eauto.
    + destruct (W5 eq_refl) as (W6 & T' & W7). destruct (drop_weak w log2 W3 (strong_weak _ _ _ W7)) as (D1 & D2 & _). rewrite W1 in D1.
      split; [eapply grows_trans; [exact G1|]; eapply grows_trans; eauto|]. split; [exact D2|]. split; [|discriminate].
      intros _. split; [intros H; apply W6; eapply grows_nofault; eauto|]. right. destruct (drop_strong _ _ _ W3 W7) as (L & HL & _). rewrite W1 in HL. eauto.
  - split; [exact G1|]. assert (E : replay start log1 p = replay start log p) by (subst log1; rewrite replay_snoc; reflexivity).
    split. { subst log1. apply (safe_snoc _ _ p); auto; [exact I|]. unfold good, FSProofs.has in *. rewrite E. apply safe_now; auto. }
    split; [|discriminate]. intros _. split; [exact Hf|]. left. exact E.
Qed.
End Writers.
