(** Proofs about ntuples. *)
From Coq Require Import ZArith.
From Verif Require Import Base Num BaseProofs ModelEvent SpecEvent EventProofs ModelText SpecRecord ModelNtuple SpecNtuple.
Open Scope list_scope.

Section Ntuple.
Context (N : NumOps) (Other : Type).
Implicit Types (r : ntuple_event N Other) (s : nt_io N Other).

Lemma has_name_spec names name : has_name names name = true <-> In name names.
Proof.
  unfold has_name. rewrite existsb_exists. split.
  - intros (x & Hx & H). destruct (list_eq_dec ascii_dec x name); [subst; auto|discriminate].
  - intros H. exists name. split; auto. destruct (list_eq_dec ascii_dec name name); congruence.
Qed.
Lemma used_spec mw names name : used mw names name <-> (mw && has_name names (lit name))%bool = true.
Proof. unfold used. rewrite Bool.andb_true_iff, has_name_spec. tauto. Qed.
Lemma unused_spec mw names name : ~ used mw names name <-> (mw && has_name names (lit name))%bool = false.
Proof. rewrite used_spec. destruct (mw && has_name names (lit name))%bool; intuition congruence. Qed.

Definition as_part (x : Z * (N * N * N * N)) : Z * FourVector N := (fst x, in_gev false (snd x)).
Lemma nt_particles_spec r l b i : 
  (forall j id e px py pz, nth_error l j = Some (id, (e, px, py, pz)) ->
    nth_error (nt_pdg r) (i + j) = Some id /\ nth_error (nt_energy r) (i + j) = Some e /\
    nth_error (nt_px r) (i + j) = Some px /\ nth_error (nt_py r) (i + j) = Some py /\ nth_error (nt_pz r) (i + j) = Some pz) ->
  nt_particles r i (length l) b = Some (mkBuilder (b_weights b) (b_out b ++ map as_part l)).
Proof.
  revert b i. induction l as [|[id [[[e px] py] pz]] l IH]; intros b i H.
  - cbn. rewrite app_nil_r. destruct b; reflexivity.
  - cbn [length nt_particles]. destruct (H 0 id e px py pz eq_refl) as (H1 & H2 & H3 & H4 & H5). rewrite Nat.add_0_r in *.
    rewrite H1, H2, H3, H4, H5. rewrite IH.
    + cbn [add_outgoing b_weights b_out map]. rewrite <- app_assoc. reflexivity.
    + intros j id' e' px' py' pz' Hj. replace (S i + j) with (i + S j) by lia. apply H. exact Hj.
Qed.

Lemma convert_spec (D : N -> Prop) mw sort names r l ws : cmp_on N D -> sort_ok sort ->
  ntuple_particles r l -> ntuple_weights mw names r ws ->
  (forall x, In x l -> mom_in D (in_gev false (snd x))) ->
  exists ev, convert_ntuple mw sort names r = Some ev /\ ev_id ev = 0 /\ ev_weights ev = ws /\
    grouped (ev_out ev) /\ Permutation (map as_part l) (particles_of (ev_out ev)).
Proof.
  intros HD Hs [Hn Hl] (w2 & me & me2 & -> & A1 & A2 & B1 & B2 & C1 & C2) Hin. unfold convert_ntuple.
  destruct (Z.ltb_spec (nt_nparticle r) 0); [lia|]. rewrite Hn, Nat2Z.id.
  set (b := if mw then _ else _).
  assert (Eb : b = mkBuilder (nt_weight r :: w2 ++ me ++ me2) []).
  { unfold b. rewrite used_spec in A1, B1, C1. rewrite unused_spec in A2, B2, C2. destruct mw; cbn [andb] in *.
    - destruct (has_name names (lit "2")), (has_name names (lit "ME")), (has_name names (lit "ME2"));
      rewrite ?A1, ?A2, ?B1, ?B2, ?C1, ?C2 by reflexivity; reflexivity.
    - rewrite A2, B2, C2 by reflexivity. reflexivity. }
  rewrite (nt_particles_spec r l b 0); [|exact Hl]. rewrite Eb. cbn [b_weights b_out app].
  eexists. split; [reflexivity|]. split; [reflexivity|]. split; [reflexivity|].
  cbn [build ev_out b_out]. destruct (compress_spec HD Hs) with (out := map as_part l) as (G & _ & P).
  - apply Forall_forall. intros x Hx. apply in_map_iff in Hx. destruct Hx as (y & <- & Hy). unfold part_in, as_part. apply Hin. exact Hy.
  - split; [exact G|exact P].
Qed.

(** how many weights are used *)
Definition nused (mw : bool) (names : list text) : nat :=
  1 + (if mw then (if has_name names (lit "2") then 1 else 0) + (if has_name names (lit "ME") then 1 else 0) + (if has_name names (lit "ME2") then 1 else 0) else 0).
Lemma ntuple_weights_length mw names r ws : ntuple_weights mw names r ws -> length ws = nused mw names.
Proof.
  intros (w2 & me & me2 & -> & A1 & A2 & B1 & B2 & C1 & C2). rewrite used_spec in A1, B1, C1. rewrite unused_spec in A2, B2, C2. unfold nused.
  destruct mw; cbn [andb] in *; [|rewrite A2, B2, C2 by reflexivity; reflexivity].
  destruct (has_name names (lit "2")), (has_name names (lit "ME")), (has_name names (lit "ME2"));
      rewrite ?A1, ?A2, ?B1, ?B2, ?C1, ?C2 by reflexivity; reflexivity.
Qed.

Lemma update_spec mw names ws r : ws = [] \/ length ws = nused mw names -> 
  exists r', ntuple_update mw names ws r = Some r' /\ ntuple_rewritten mw names ws r r'.
Proof.
  intros [->|H]; [exists r; split; [reflexivity|left; auto]|]. destruct ws as [|w ws]; [discriminate|].
  unfold ntuple_update, next_weight, nused in *. unfold ntuple_rewritten, ntuple_weights, same_but_weights.
  assert (K : forall name, {used mw names name} + {~ used mw names name}).
  { intros name. destruct (mw && has_name names (lit name))%bool eqn:E; [left; apply used_spec; auto|right; apply unused_spec; auto]. }
  pose proof (used_spec mw names "2") as U1. pose proof (used_spec mw names "ME") as U2. pose proof (used_spec mw names "ME2") as U3.
  destruct mw; cbn [andb] in *.
  - destruct (has_name names (lit "2")), (has_name names (lit "ME")), (has_name names (lit "ME2")); cbn [length plus fst snd] in *;
    destruct ws as [|x [|y [|z [|z' ws]]]]; try discriminate H;
    (eexists; split; [reflexivity|]; right; split; [discriminate|]; split; [|cbn; intuition congruence]);
    [exists [x], [y], [z]|exists [x], [y], []|exists [x], [], [y]|exists [x], [], []|exists [], [x], [y]|exists [], [x], []|exists [], [], [x]|exists [], [], []]; cbn; intuition congruence.
  - destruct ws; [|discriminate]. eexists. split; [reflexivity|]. right. split; [discriminate|]. split; [|cbn; intuition congruence].
    exists [], [], []. cbn. intuition congruence.
Qed.
Lemma update_too_few mw names ws r : ws <> [] -> length ws < nused mw names -> ntuple_update mw names ws r = None.
Proof.
  intros Hne H. destruct ws as [|w ws]; [congruence|]. unfold ntuple_update, next_weight, nused in *. destruct mw; [|cbn in H; lia].
  destruct (has_name names (lit "2")), (has_name names (lit "ME")), (has_name names (lit "ME2")); cbn [length plus fst snd] in *;
  destruct ws as [|? [|? [|? ws]]]; cbn [length] in H; try lia; reflexivity.
Qed.

Lemma update_next_spec mw names ws s r rest : io_rest s = r :: rest -> ws = [] \/ length ws = nused mw names ->
  exists r', ntuple_rewritten mw names ws r r' /\
    nt_update_next mw names ws s = Some (true, mkNtIO (io_events s) rest (io_out s ++ [r'])).
Proof.
  intros E H. destruct (update_spec mw names ws r H) as (r' & E' & H'). exists r'. split; auto.
  unfold nt_update_next, nt_next. rewrite E, E'. reflexivity.
Qed.

Lemma combined_loop_spec mw names weights s : Forall (fun ws => ws = [] \/ length ws = nused mw names) weights ->
  exists out, nt_combined_loop mw names weights s =
     Some (skipn (length (io_rest s)) weights, mkNtIO (io_events s) (skipn (length weights) (io_rest s)) (io_out s ++ out)) /\
    Forall2 (fun wr r' => ntuple_rewritten mw names (fst wr) (snd wr) r') (combine weights (io_rest s)) out.
Proof.
  intros H. revert s. induction H as [|ws weights Hw _ IH]; intros s.
  - exists []. cbn. rewrite app_nil_r. destruct s as [a b c]. cbn. destruct (length b); auto.
  - cbn [nt_combined_loop]. destruct (io_rest s) as [|r rest] eqn:E.
    + unfold nt_update_next, nt_next. rewrite E. exists []. destruct s as [a b c]. cbn in E. subst b. cbn. rewrite app_nil_r. auto.
    + destruct (update_next_spec mw names ws s r rest E Hw) as (r' & Hr & ->). destruct (IH (mkNtIO (io_events s) rest (io_out s ++ [r']))) as (out & E' & H').
      exists (r' :: out). rewrite E'. cbn [io_rest io_events io_out length skipn combine]. rewrite <- app_assoc. cbn [app]. split; auto.
Qed.

Lemma update_loop_spec fuel mw names weights k s : Forall (fun ws => ws = [] \/ length ws = nused mw names) weights -> length (io_rest s) <= fuel ->
  if length (skipn k weights) <=? length (io_rest s) then nt_update_loop fuel mw names weights k s = None
  else exists out, nt_update_loop fuel mw names weights k s = Some (k + length (io_rest s), mkNtIO (io_events s) [] (io_out s ++ out)) /\
    Forall2 (fun wr r' => ntuple_rewritten mw names (fst wr) (snd wr) r') (combine (skipn k weights) (io_rest s)) out.
Proof.
  intros Hw. revert k s. induction fuel as [|fuel IH]; intros k s Hf; destruct (io_rest s) as [|r rest] eqn:E; cbn [length] in *; try lia.
  - destruct (nth_error weights k) as [w|] eqn:Ek.
    + assert (Hk : k < length weights) by (apply nth_error_Some; congruence). rewrite skipn_length. destruct (Nat.leb_spec (length weights - k) 0); [lia|].
      exists []. destruct s as [a b c]. cbn in E. subst b. cbn. rewrite Ek. cbn. rewrite app_nil_r, Nat.add_0_r. destruct (skipn k weights); split; auto; constructor.
    + apply nth_error_None in Ek as Hk. rewrite skipn_length. destruct (Nat.leb_spec (length weights - k) 0); [|lia]. cbn. rewrite Ek. reflexivity.
  - destruct (nth_error weights k) as [w|] eqn:Ek.
    + assert (Hk : k < length weights) by (apply nth_error_Some; congruence). rewrite skipn_length. destruct (Nat.leb_spec (length weights - k) 0); [lia|].
      exists []. destruct s as [a b c]. cbn in E. subst b. cbn. rewrite Ek. cbn. rewrite app_nil_r, Nat.add_0_r. destruct (skipn k weights); split; auto; constructor.
    + apply nth_error_None in Ek as Hk. rewrite skipn_length. destruct (Nat.leb_spec (length weights - k) 0); [|lia]. cbn. rewrite Ek. reflexivity.
  - cbn [nt_update_loop]. destruct (nth_error weights k) as [w|] eqn:Ek.
    + assert (Hk : k < length weights) by (apply nth_error_Some; congruence).
      assert (Hw' : w = [] \/ length w = nused mw names). { rewrite Forall_forall in Hw. apply Hw. eapply nth_error_In; eauto. }
      destruct (update_next_spec mw names w s r rest E Hw') as (r' & Hr & ->).
      specialize (IH (S k) (mkNtIO (io_events s) rest (io_out s ++ [r']))). cbn [io_rest] in IH. specialize (IH ltac:(lia)).
      rewrite skipn_length in *. destruct (Nat.leb_spec (length weights - S k) (length rest)), (Nat.leb_spec (length weights - k) (S (length rest))); try lia; auto.
      destruct IH as (out & E' & H'). exists (r' :: out). rewrite E'. cbn [io_events io_out]. rewrite <- app_assoc. cbn [app]. split; [f_equal; f_equal; cbn [length]; lia|].
      assert (Es : skipn k weights = w :: skipn (S k) weights).
      { clear -Ek. revert weights Ek. induction k as [|k IH]; intros [|a l] H; try discriminate; [cbn in *; congruence|]. cbn [skipn]. apply IH. exact H. }
      unfold text in *. rewrite Es. cbn [combine]. constructor; auto.
    + apply nth_error_None in Ek. rewrite skipn_length. destruct (Nat.leb_spec (length weights - k) (S (length rest))); [|lia]. reflexivity.
Qed.
End Ntuple.
