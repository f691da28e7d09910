(** ROOT ntuples (C59, C60). *)
From Coq Require Import ZArith.
From Verif Require Import Base Num BaseProofs ModelEvent SpecEvent EventProofs ModelText SpecRecord ModelNtuple SpecNtuple NtupleProofs PropsCluster TextExamples.
Open Scope list_scope.

(** C59: the event read from a record of an ntuple has the weights to be used, in this order: main
    weight, "2", "ME", "ME2"; and exactly the particles of the record. *)
Theorem C59_read : forall (N : NumOps) (Other : Type) (D : N -> Prop) mw sort names (r : ntuple_event N Other) l ws,
  cmp_on N D -> sort_ok sort -> ntuple_particles r l -> ntuple_weights mw names r ws ->
  (forall x, In x l -> mom_in D (in_gev false (snd x))) ->
  exists ev, convert_ntuple mw sort names r = Some ev /\ ev_id ev = 0 /\ ev_weights ev = ws /\ grouped (ev_out ev) /\
    Permutation (map (fun x => (fst x, in_gev false (snd x))) l) (particles_of (ev_out ev)).
Proof. intros N Other D mw sort names r l ws HD Hs Hp Hw Hin. exact (convert_spec N Other D mw sort names r l ws HD Hs Hp Hw Hin). Qed.
Print Assumptions C59_read.

(** Weights for an event as it was read (or none) are written: the record has the new weights,
    everything else is unchanged; without weights it is unchanged altogether. *)
Theorem C59_update : forall (N : NumOps) (Other : Type) mw names (r0 r : ntuple_event N Other) ws0 ws,
  ntuple_weights mw names r0 ws0 -> ws = [] \/ length ws = length ws0 ->
  exists r', ntuple_update mw names ws r = Some r' /\ ntuple_rewritten mw names ws r r'.
Proof.
  intros N Other mw names r0 r ws0 ws H0 H. apply update_spec. destruct H as [H|H]; [auto|right]. rewrite H. eapply ntuple_weights_length; eauto.
Qed.
Print Assumptions C59_update.

(** Reading what was written gives the same particles with the new weights. *)
Theorem C59_read_back : forall (N : NumOps) (Other : Type) (D : N -> Prop) mw sort names (r r' : ntuple_event N Other) l ev ws,
  cmp_on N D -> sort_ok sort -> ntuple_particles r l -> ws <> [] ->
  (forall x, In x l -> mom_in D (in_gev false (snd x))) ->
  convert_ntuple mw sort names r = Some ev -> length ws = length (ev_weights ev) ->
  ntuple_update mw names ws r = Some r' ->
  exists ev', convert_ntuple mw sort names r' = Some ev' /\ ev_weights ev' = ws /\ ev_out ev' = ev_out ev.
Proof.
  intros N Other D mw sort names r r' l ev ws HD Hs Hp Hne Hin E Hlen Hu.
  assert (exists ws0, ntuple_weights mw names r ws0) as (ws0 & H0).
  { pose proof (used_spec mw names) as U. unfold ntuple_weights.
    exists (nt_weight r :: (if mw && has_name names (lit "2") then [nt_weight2 r] else []) ++ (if mw && has_name names (lit "ME") then [nt_me r] else []) ++
       (if mw && has_name names (lit "ME2") then [nt_me2 r] else [])).
    do 3 eexists. split; [reflexivity|].
    rewrite !U. destruct (mw && has_name names (lit "2")), (mw && has_name names (lit "ME")), (mw && has_name names (lit "ME2")); intuition congruence. }
  destruct (C59_read N Other D mw sort names r l ws0 HD Hs Hp H0 Hin) as (ev0 & E0 & _ & Ew & _).
  rewrite E in E0. injection E0 as <-. rewrite Ew in Hlen.
  destruct (C59_update N Other mw names r r ws0 ws H0 (or_intror Hlen)) as (r'' & E' & [[? _]|(_ & Hw & Hsame)]); [congruence|].
  rewrite Hu in E'. injection E' as <-. destruct Hsame as (S1 & S2 & S3 & S4 & S5 & S6 & _).
  assert (Hp' : ntuple_particles r' l) by (unfold ntuple_particles in *; rewrite S1, S2, S3, S4, S5, S6; exact Hp).
  destruct (C59_read N Other D mw sort names r' l ws HD Hs Hp' Hw Hin) as (ev' & E'' & _ & Ew' & _).
  exists ev'. split; auto. split; auto.
  clear -E E'' Hp Hp'. unfold convert_ntuple in *. destruct Hp as [Hn Hl], Hp' as [Hn' Hl']. rewrite Hn in E. rewrite Hn' in E''.
  destruct (Z.ltb_spec (Z.of_nat (length l)) 0); [discriminate|]. rewrite Nat2Z.id in *.
  rewrite (nt_particles_spec N Other r l) in E by exact Hl. rewrite (nt_particles_spec N Other r' l) in E'' by exact Hl'.
  injection E as <-. injection E'' as <-. cbn [build ev_out b_out]. f_equal. f_equal.
  destruct mw; [|reflexivity]. repeat match goal with |- context [has_name names ?x] => destruct (has_name names x) end; reflexivity.
Qed.
Print Assumptions C59_read_back.

(** A record, three weights *)
Definition nt_case : ntuple_event ZN nat :=
  mkNtuple (N := ZN) 2%Z [21; 11; 0]%Z [5; 13; 0]%Z [3; 5; 0]%Z [4; 12; 0]%Z [0; 0; 0]%Z 10%Z 20%Z 30%Z 40%Z 7.
Example C59_case :
  ntuple_particles (N := ZN) nt_case [(21, (5, 3, 4, 0)); (11, (13, 5, 12, 0))]%Z /\
  ntuple_weights (N := ZN) true [lit "ME2"; lit "2"] nt_case [10; 20; 40]%Z /\
  ntuple_update (N := ZN) true [lit "ME2"; lit "2"] [1; 2; 3]%Z nt_case =
    Some (mkNtuple (N := ZN) 2%Z [21; 11; 0]%Z [5; 13; 0]%Z [3; 5; 0]%Z [4; 12; 0]%Z [0; 0; 0]%Z 1%Z 2%Z 30%Z 3%Z 7) /\
  option_map (@ev_weights ZN) (convert_ntuple true (@isort) [lit "ME2"; lit "2"] nt_case) = Some [10; 20; 40]%Z.
Proof.
  split; [|split; [|split; vmr]].
  - split; [reflexivity|]. intros [|[|i]] id e px py pz H; cbn in H; [| |destruct i; discriminate]; injection H as <- <- <- <- <-; repeat split.
  - exists [20]%Z, [], [40]%Z. split; [reflexivity|]. unfold used. cbn. intuition (try discriminate); try tauto.
Qed.

(** C60: [update_next_weights] writes the next event with the new weights and returns true, or returns
    false if there is none. *)
Theorem C60_next : forall (N : NumOps) (Other : Type) mw names (s : nt_io N Other) (r0 : ntuple_event N Other) ws0 ws,
  ntuple_weights mw names r0 ws0 -> ws = [] \/ length ws = length ws0 ->
  match io_rest s with
  | [] => nt_update_next mw names ws s = Some (false, s)
  | r :: rest => exists r', ntuple_rewritten (Other := Other) mw names ws r r' /\
      nt_update_next mw names ws s = Some (true, mkNtIO (io_events s) rest (io_out s ++ [r']))
  end.
Proof.
  intros N Other mw names s r0 ws0 ws H0 H. destruct (io_rest s) as [|r rest] eqn:E; [unfold nt_update_next, nt_next; rewrite E; reflexivity|].
  apply update_next_spec; auto. destruct H as [H|H]; [auto|right]. rewrite H. eapply ntuple_weights_length; eauto.
Qed.
Print Assumptions C60_next.

(** With [CombinedFileIO] the events of a file are written in order, each with its weights. *)
Theorem C60_combined : forall (N : NumOps) (Other : Type) mw names (events : list (ntuple_event N Other)) weights (r0 : ntuple_event N Other) ws0,
  ntuple_weights mw names r0 ws0 -> Forall (fun ws => ws = [] \/ length ws = length ws0) weights ->
  exists s out, nt_combined_loop mw names weights (nt_open events) = Some (skipn (length events) weights, s) /\ io_out s = out /\
    Forall2 (fun wr r' => ntuple_rewritten (Other := Other) mw names (fst wr) (snd wr) r') (combine weights events) out.
Proof.
  intros N Other mw names events weights r0 ws0 H0 H. rewrite (ntuple_weights_length N Other mw names r0 ws0 H0) in H.
  destruct (combined_loop_spec N Other mw names weights (nt_open events) H) as (out & E & Hout). eexists. exists out. split; [exact E|]. split; [reflexivity|exact Hout].
Qed.
Print Assumptions C60_combined.

(** After rewinding all events are read again, whatever was read before. *)
Lemma history_rewind (N : NumOps) (Other : Type) (events : list (ntuple_event N Other)) s : nt_history events s -> nt_rewind s = nt_open events.
Proof.
  intros H. assert (io_events s = events /\ io_out s = []) as [H1 H2].
  { induction H as [|s _ [IH1 IH2]|s _ [IH1 IH2]]; [auto| |auto]. unfold nt_next. destruct (io_rest s); auto. }
  unfold nt_rewind. rewrite H1, H2. reflexivity.
Qed.
Fixpoint nt_take {N : NumOps} {Other : Type} (n : nat) (s : nt_io N Other) : list (option (ntuple_event N Other)) :=
  match n with 0 => [] | S n => fst (nt_next s) :: nt_take n (snd (nt_next s)) end.
Theorem C60_reread : forall (N : NumOps) (Other : Type) (events : list (ntuple_event N Other)) s, nt_history events s ->
  nt_take (length events + 1) (nt_rewind s) = map Some events ++ [None].
Proof.
  intros N Other events s H. rewrite (history_rewind _ _ _ _ H). unfold nt_open.
  assert (G : forall rest all out, nt_take (length rest + 1) (mkNtIO all rest out) = map Some rest ++ [None] :> list (option (ntuple_event N Other))).
  { induction rest as [|r rest IH]; intros all out; [reflexivity|]. cbn [length Nat.add nt_take nt_next io_rest fst snd map app io_events io_out]. f_equal. apply IH. }
  apply G.
Qed.
Print Assumptions C60_reread.

(** As documented, [update_all_weights] of a single file should replace all weights and return the
    number of events, no matter what was read before.  This is so if there are more weights than
    events ... *)
Theorem C60_all_partial : forall (N : NumOps) (Other : Type) mw names (events : list (ntuple_event N Other)) s weights (r0 : ntuple_event N Other) ws0,
  nt_history events s ->
  ntuple_weights mw names r0 ws0 -> Forall (fun ws => ws = [] \/ length ws = length ws0) weights ->
  length events < length weights ->
  exists s' out, nt_update_all mw names weights s = Some (length events, s') /\ io_out s' = out /\
    Forall2 (fun wr r' => ntuple_rewritten (Other := Other) mw names (fst wr) (snd wr) r') (combine weights events) out.
Proof.
  intros N Other mw names events s weights r0 ws0 Hh H0 H Hlt. rewrite (ntuple_weights_length N Other mw names r0 ws0 H0) in H.
  pose proof (update_loop_spec N Other (length events) mw names weights 0 (nt_open events) H (le_n _)) as L.
  unfold nt_update_all. rewrite (history_rewind _ _ _ _ Hh).
  cbn [skipn nt_open io_rest io_events] in *. destruct (Nat.leb_spec (length weights) (length events)); [lia|].
  destruct L as (out & E & Hout). eexists. exists out. split; [exact E|]. split; [reflexivity|exact Hout].
Qed.
Print Assumptions C60_all_partial.
(** ... but with one list of weights per event, or fewer, it always panics: after the last event
    the code looks up the weights of the next one. *)
Theorem C60_all_refuted : forall (N : NumOps) (Other : Type) mw names (events : list (ntuple_event N Other)) s weights (r0 : ntuple_event N Other) ws0,
  nt_history events s ->
  ntuple_weights mw names r0 ws0 -> Forall (fun ws => ws = [] \/ length ws = length ws0) weights ->
  length weights = length events -> nt_update_all (Other := Other) mw names weights s = None.
Proof.
  intros N Other mw names events s weights r0 ws0 Hh H0 H Heq. rewrite (ntuple_weights_length N Other mw names r0 ws0 H0) in H.
  pose proof (update_loop_spec N Other (length events) mw names weights 0 (nt_open events) H (le_n _)) as L.
  unfold nt_update_all. rewrite (history_rewind _ _ _ _ Hh).
  cbn [skipn nt_open io_rest io_events] in *. destruct (Nat.leb_spec (length weights) (length events)); [exact L|lia].
Qed.
Print Assumptions C60_all_refuted.

Example C60_case :
  nt_history (N := ZN) [nt_case; nt_case] (snd (nt_next (nt_open [nt_case; nt_case]))) /\
  nt_update_all (N := ZN) false [] [[1]; [2]]%Z (nt_open [nt_case; nt_case]) = None /\
  option_map fst (nt_update_all (N := ZN) false [] [[1]; [2]; [3]]%Z (nt_open [nt_case; nt_case])) = Some 2 /\
  option_map (fun x => map nt_weight (io_out (snd x))) (nt_combined_loop (N := ZN) false [] [[1]; [2]]%Z (nt_open [nt_case; nt_case])) = Some [1; 2]%Z.
Proof. split; [apply nt_read; apply nt_opened|]. repeat split; vmr. Qed.
