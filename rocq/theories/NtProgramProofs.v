(** Proofs about the program on ntuples, 1: reading and writing several files. *)
From Verif Require Import Base BaseProofs Num ModelEvent ModelText SpecRecord ModelNtuple SpecNtuple NtupleProofs ModelCres ModelNtProgram.
From Coq Require Import Lia.

Section IO.
Context (N : NumOps) (Other : Type).
Notation event := (ntuple_event N Other).
Implicit Types (files : list (list event)) (s : ncio N Other).

Lemma set_nth_repeat A (x : A) : forall n i, i < n -> set_nth i x (repeat x n) = Some (repeat x n).
Proof. induction n as [|n IH]; intros [|i] H; try lia; [reflexivity|]. cbn [repeat set_nth]. rewrite IH by lia. reflexivity. Qed.

Lemma init_loop_spec files : forall n idx cur i, idx + n = length files -> exists cur' i',
  ncio_init_loop idx n (mkNCIO files cur i (repeat [] (length files))) = Some (mkNCIO files cur' i' (repeat [] (length files))).
Proof.
  induction n as [|n IH]; intros idx cur i H; [exists cur, i; reflexivity|]. cbn [ncio_init_loop]. unfold ncio_open at 1. cbn [n_files n_outs].
  destruct (nth_error files idx) as [f|] eqn:E; [|apply nth_error_None in E; lia]. rewrite set_nth_repeat by lia. apply IH. lia.
Qed.
Lemma new_spec files : ncio_new files =
  Some (mkNCIO files (match files with [] => None | f :: _ => Some (nt_open f) end) 0 (repeat [] (length files))).
Proof.
  unfold ncio_new, ncio_init. cbn [n_files]. destruct files as [|f files]; [reflexivity|].
  destruct (init_loop_spec (f :: files) (length (f :: files)) 0 None 0 eq_refl) as (cur & i & ->). unfold ncio_open. cbn [n_files n_outs nth_error length]. reflexivity.
Qed.

Lemma nth_error_first A (l : list A) : forall n k, k < n -> nth_error (firstn n l) k = nth_error l k.
Proof. induction l as [|a l IH]; intros [|n] [|k] H; try lia; try reflexivity. apply IH. lia. Qed.

(** What is left to be read *)
Definition to_read s (todo : list event) : Prop :=
  length (n_outs s) = length (n_files s) /\
  exists f, n_current s = Some f /\ n_idx s < length (n_files s) /\ todo = io_rest f ++ concat (skipn (S (n_idx s)) (n_files s)).

Lemma skipn_nth A (l : list A) n x : nth_error l n = Some x -> skipn n l = x :: skipn (S n) l.
Proof. revert l. induction n as [|n IH]; intros [|a l] H; try discriminate; [cbn in *; congruence|]. apply (IH l H). Qed.

Lemma next_spec : forall fuel s todo, to_read s todo -> length (n_files s) - n_idx s <= fuel ->
  match todo with
  | [] => exists s', ncio_next fuel s = Some (None, s') /\ n_files s' = n_files s /\ length (n_outs s') = length (n_files s)
  | r :: todo => exists s', ncio_next fuel s = Some (Some r, s') /\ n_files s' = n_files s /\ to_read s' todo
  end.
Proof.
  induction fuel as [|fuel IH]; intros s todo (Ho & f & Ef & Hi & ->) Hf; [lia|]. cbn [ncio_next]. rewrite Ef. unfold nt_next.
  destruct (io_rest f) as [|r rest] eqn:Er.
  - cbn [app]. unfold ncio_open. cbn [n_files n_outs n_idx]. destruct (Nat.eqb_spec (n_idx s + 1) (length (n_files s))) as [El|El].
    + rewrite skipn_all2 by lia. cbn [concat]. eexists. split; [reflexivity|]. auto.
    + destruct (nth_error (n_files s) (n_idx s + 1)) as [g|] eqn:Eg; [|apply nth_error_None in Eg; lia].
      destruct (set_nth_some (i := n_idx s + 1) [] (n_outs s)) as [outs Eo]; [lia|]. rewrite Eo. apply set_nth_spec in Eo as (_ & El2 & _).
      replace (S (n_idx s)) with (n_idx s + 1) by lia. rewrite (skipn_nth _ _ _ _ Eg). cbn [concat].
      assert (T : to_read (mkNCIO (n_files s) (Some (nt_open g)) (n_idx s + 1) outs) (g ++ concat (skipn (S (n_idx s + 1)) (n_files s)))).
      { split; cbn [n_outs n_files]; [lia|]. exists (nt_open g). cbn [n_current n_idx n_files io_rest nt_open]. split; [reflexivity|]. split; [lia|reflexivity]. }
      specialize (IH _ _ T). cbn [n_files n_idx] in IH. specialize (IH ltac:(lia)).
      destruct (g ++ concat (skipn (S (n_idx s + 1)) (n_files s))); exact IH.
  - cbn [app]. eexists. split; [reflexivity|]. split; [reflexivity|]. split; [exact Ho|]. eexists. cbn [n_current n_idx n_files io_rest]. auto.
Qed.

Lemma read_all_spec : forall todo s fuel, to_read s todo -> length todo < fuel ->
  exists s', ncio_read_all fuel s = Some (todo, s') /\ n_files s' = n_files s /\ length (n_outs s') = length (n_files s).
Proof.
  induction todo as [|r todo IH]; intros s [|fuel] H Hf; cbn [length] in Hf; try lia; cbn [ncio_read_all];
    pose proof (next_spec (S (length (n_files s))) s _ H ltac:(lia)) as (s' & E & F & G); rewrite E.
  - exists s'. auto.
  - destruct (IH s' fuel G ltac:(lia)) as (s2 & E2 & F2 & G2). rewrite E2. exists s2. split; [reflexivity|]. rewrite F2, G2, F. auto.
Qed.
Lemma read_files files fuel : length (concat files) < fuel -> exists s0 s, ncio_new files = Some s0 /\ ncio_read_all fuel s0 = Some (concat files, s) /\
  n_files s = files /\ length (n_outs s) = length files.
Proof.
  intros H. rewrite new_spec. destruct files as [|f files].
  - destruct fuel; [cbn in H; lia|]. do 2 eexists. split; [reflexivity|]. split; [reflexivity|]. auto.
  - destruct (read_all_spec (concat (f :: files)) (mkNCIO (f :: files) (Some (nt_open f)) 0 (repeat [] (length (f :: files)))) fuel) as (s & E & F & G); [|exact H|].
    + split; cbn [n_outs n_files]; [apply repeat_length|]. exists (nt_open f). cbn [n_current n_idx n_files length skipn io_rest nt_open concat]. split; [reflexivity|]. split; [lia|reflexivity].
    + eexists. exists s. split; [reflexivity|]. auto.
Qed.

Definition rewritten mw names (wr : list N * event) (r' : event) : Prop := ntuple_rewritten mw names (fst wr) (snd wr) r'.

Lemma combine_split A B (l1 l2 : list A) (m1 m2 : list B) : length l1 = length m1 -> combine (l1 ++ l2) (m1 ++ m2) = combine l1 m1 ++ combine l2 m2.
Proof. revert m1. induction l1 as [|a l1 IH]; intros [|b m1] H; try discriminate; [reflexivity|]. cbn [app combine]. f_equal. apply IH. cbn in H. lia. Qed.

Lemma update_files_spec mw names files : forall n idx weights cur i outs, idx + n = length files -> length outs = length files ->
  Forall (fun ws => ws = [] \/ length ws = nused mw names) weights -> length weights = length (concat (skipn idx files)) ->
  exists news s', ncio_update_files mw names idx n weights (mkNCIO files cur i outs) = Some ([], s') /\ n_outs s' = firstn idx outs ++ news /\
    Forall2 (fun f o => length o = length f) (skipn idx files) news /\
    Forall2 (rewritten mw names) (combine weights (concat (skipn idx files))) (concat news).
Proof.
  induction n as [|n IH]; intros idx weights cur i outs Hn Ho Hw Hl.
  - rewrite skipn_all2 in * by lia. destruct weights; [|discriminate]. exists [], (mkNCIO files cur i outs). cbn [ncio_update_files n_outs concat combine].
    rewrite firstn_all2, app_nil_r by lia. auto.
  - cbn [ncio_update_files]. unfold ncio_open at 1. cbn [n_files n_outs].
    destruct (nth_error files idx) as [f|] eqn:Ef; [|apply nth_error_None in Ef; lia].
    destruct (set_nth_some (i := idx) [] outs) as [outs1 Eo]; [lia|]. rewrite Eo. cbn [n_current n_files n_idx n_outs].
    rewrite (skipn_nth _ _ _ _ Ef) in *. cbn [concat] in *. rewrite app_length in Hl.
    destruct (combined_loop_spec N Other mw names weights (nt_open f) Hw) as (out & -> & Hout). cbn [io_rest nt_open io_events io_out app] in *.
    apply set_nth_spec in Eo as (_ & Hl1 & H1). destruct (set_nth_some (i := idx) out outs1) as [outs2 Eo2]; [lia|]. rewrite Eo2. apply set_nth_spec in Eo2 as (_ & Hl2 & H2).
    assert (Hlen : length out = length f).
    { apply BaseProofs.Forall2_len in Hout. rewrite combine_length in Hout. unfold text in *. lia. }
    assert (Hw' : Forall (fun ws => ws = [] \/ length ws = nused mw names) (skipn (length f) weights)).
    { rewrite <- (firstn_skipn (length f) weights) in Hw. apply Forall_app in Hw. apply Hw. }
    destruct (IH (S idx) (skipn (length f) weights) (Some (mkNtIO f (skipn (length weights) f) out)) idx outs2) as (news & s' & E & Es & F1 & F2);
      [lia|lia|exact Hw'|rewrite skipn_length; unfold text in *; lia|].
    exists (out :: news), s'. split; [exact E|]. split.
    + rewrite Es. replace (firstn (S idx) outs2) with (firstn idx outs ++ [out]); [rewrite <- app_assoc; reflexivity|].
      apply nth_error_ext. intros k. destruct (Nat.lt_ge_cases k idx) as [Hk|Hk].
      * rewrite nth_error_app1 by (rewrite firstn_length; lia). rewrite !nth_error_first by lia. rewrite H2, H1. destruct (Nat.eqb_spec k idx); [lia|reflexivity].
      * rewrite nth_error_app2 by (rewrite firstn_length; lia). rewrite firstn_length. replace (Nat.min idx (length outs)) with idx by lia.
        destruct (Nat.eq_dec k idx) as [->|Hne].
        -- rewrite Nat.sub_diag. rewrite nth_error_first by lia. rewrite H2, Nat.eqb_refl. reflexivity.
        -- transitivity (@None (list event)); [|symmetry]; apply nth_error_None; [cbn; lia|rewrite firstn_length; lia].
    + split; [constructor; assumption|]. cbn [concat].
      rewrite <- (firstn_skipn (length f) weights) at 1. rewrite combine_split by (rewrite firstn_length; unfold text in *; lia).
      apply Forall2_app; [|exact F2].
      replace (combine (firstn (length f) weights) f) with (combine weights f); [exact Hout|].
      clear. revert weights. induction f as [|r f IH]; intros [|w weights]; cbn [length firstn combine]; try reflexivity. f_equal. apply IH.
Qed.
Lemma update_all_spec mw names W s : length (n_outs s) = length (n_files s) -> Forall (fun ws => ws = [] \/ length ws = nused mw names) W ->
  length W = length (concat (n_files s)) ->
  exists s', ncio_update_all mw names W s = Some (length W, s') /\
    Forall2 (fun f o => length o = length f) (n_files s) (n_outs s') /\
    Forall2 (rewritten mw names) (combine W (concat (n_files s))) (concat (n_outs s')).
Proof.
  intros Ho Hw Hl. unfold ncio_update_all, ncio_rewind.
  destruct (update_files_spec mw names (n_files s) (length (n_files s)) 0 W None (n_idx s) (n_outs s) eq_refl Ho Hw Hl) as (news & s' & E & Es & F1 & F2).
  rewrite E. exists s'. cbn [length]. rewrite Nat.sub_0_r, Es. cbn [firstn app]. auto.
Qed.
End IO.
