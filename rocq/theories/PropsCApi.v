(** The C interface: error messages (C44), views of events (C45). *)
From Coq Require Import ZArith Ascii String.
From Verif Require Import Base Num BaseProofs ModelEvent SpecEvent EventProofs ModelCApi SpecCApi CApiProofs TextExamples.
Open Scope list_scope.

(** C44: if the last error has a text [msg] (shorter than 2 GiB), then [cres_get_last_err] changes only
    the [buflen] bytes of the buffer; it puts as much of the text there as fits, followed by NUL
    (nothing if the buffer is empty); it returns 0 if the complete text fits, otherwise the size of the
    buffer that is needed, which is larger than [buflen]. *)
Theorem C44_buffer : forall s thread msg mem buf buflen mem' r,
  s thread = Some msg -> (Z.of_nat (List.length msg) < 2 ^ 31 - 1)%Z ->
  cres_get_last_err s thread mem buf buflen = (mem', r) ->
  only_changed mem mem' buf buflen /\
  (0 < buflen -> bytes_at mem' buf (firstn (buflen - 1) msg ++ [zero])) /\
  (List.length msg < buflen -> r = 0%Z /\ bytes_at mem' buf (msg ++ [zero])) /\
  (buflen <= List.length msg -> r = Z.of_nat (List.length msg + 1) /\ (Z.of_nat buflen < r)%Z).
Proof.
  intros s thread msg mem buf buflen mem' r Hs Hm E. unfold cres_get_last_err in E. rewrite Hs in E.
  assert (H32 : as_i32 (1 + List.length msg) = Z.of_nat (List.length msg + 1)) by (rewrite as_i32_small; lia).
  destruct (Nat.eq_dec buflen 0) as [->|Hb].
  - cbn in E. injection E as <- <-. split; [intros b _; reflexivity|]. split; [lia|]. split; [lia|].
    intros _. split; [exact H32|]. change (S (List.length msg)) with (1 + List.length msg). rewrite H32. lia.
  - pose proof (get_buffer msg mem buf buflen) as G. rewrite E in G. destruct G as (A & B & C); [lia|].
    split; [exact B|]. split; [auto|]. split.
    + intros Hl. destruct (Nat.leb_spec buflen (List.length msg)); [lia|]. split; [exact C|].
      rewrite firstn_all2 in A by lia. exact A.
    + intros Hl. destruct (Nat.leb_spec buflen (List.length msg)); [|lia]. rewrite C, H32. split; [reflexivity|lia].
Qed.
Print Assumptions C44_buffer.

(** Asking again with a buffer of the size returned gives the complete text. *)
Theorem C44_retry : forall s thread msg mem buf buflen mem' r buf2 mem2 mem2' r2,
  s thread = Some msg -> (Z.of_nat (List.length msg) < 2 ^ 31 - 1)%Z ->
  cres_get_last_err s thread mem buf buflen = (mem', r) -> r <> 0%Z ->
  cres_get_last_err s thread mem2 buf2 (Z.to_nat r) = (mem2', r2) ->
  r2 = 0%Z /\ bytes_at mem2' buf2 (msg ++ [zero]).
Proof.
  intros s thread msg mem buf buflen mem' r buf2 mem2 mem2' r2 Hs Hm E Hr E2.
  destruct (C44_buffer _ _ _ _ _ _ _ _ Hs Hm E) as (_ & _ & A & B).
  destruct (C44_buffer _ _ _ _ _ _ _ _ Hs Hm E2) as (_ & _ & C & _).
  destruct (Nat.lt_ge_cases (List.length msg) buflen) as [H|H]; [destruct (A H); congruence|].
  destruct (B H) as [-> _]. apply C. lia.
Qed.
Print Assumptions C44_retry.

(** The text of the last error: after any calls of any threads, [cres_get_last_err] called by a thread
    uses the text of the most recent run of that thread that did not return 0; if there is none, it
    returns 0 and does not touch the buffer. *)
Theorem C44_history : forall calls mem thread mem' buf buflen,
  let s := fst (fold_left do_call (rev calls) (fun _ => None, mem)) in
  s thread = last_error thread calls /\
  (last_error thread calls = None -> cres_get_last_err s thread mem' buf buflen = (mem', 0%Z)).
Proof.
  intros calls mem thread mem' buf buflen s. assert (E : s thread = last_error thread calls) by apply calls_last.
  split; [exact E|]. intros H. unfold cres_get_last_err. rewrite E, H. reflexivity.
Qed.
Print Assumptions C44_history.

(** [cres_run] returns 0 if and only if the run finished without error or panic. *)
Theorem C44_return : forall s thread e, snd (cres_run s thread e) = 0%Z <-> e = Finished.
Proof. intros s thread [|msg|]; cbn; split; congruence. Qed.
Print Assumptions C44_return.

(** Without the limit on the length of the text the claim is false: for a text of 2^32 - 1 bytes the
    value returned is 0, although the text was cut. *)
Theorem C44_huge_refuted : exists msg s mem buf buflen,
  s 0 = Some msg /\ buflen <= List.length msg /\ snd (cres_get_last_err s 0 mem buf buflen) = 0%Z.
Proof.
  exists (repeat "x"%char (Z.to_nat (2 ^ 32 - 1))).
  exists (fun _ => Some (repeat "x"%char (Z.to_nat (2 ^ 32 - 1)))), (fun _ => zero), 0%Z, 0.
  split; [reflexivity|]. split; [lia|]. unfold cres_get_last_err, last_err_internal. cbn [Nat.eqb snd].
  rewrite repeat_length. unfold as_i32. rewrite Nat2Z.inj_add, Z2Nat.id by lia. reflexivity.
Qed.
Print Assumptions C44_huge_refuted.

Example C44_case :
  let s := fst (fold_left do_call [CallRun 0 (Failed (list_ascii_of_string "old")); CallRun 1 Panicked; CallRun 0 (Failed (list_ascii_of_string "oops")); CallRun 0 Finished] (fun _ => None, fun _ => "."%char)) in
  let get n := let '(m, r) := cres_get_last_err s 0 (fun _ => "."%char) 10 n in (map m [9; 10; 11; 12; 13; 14; 15]%Z, r) in
  get 0 = (list_ascii_of_string ".......", 5%Z) /\
  get 3 = ([".";"o";"o";zero;".";".";"."]%char, 5%Z) /\
  get 5 = ([".";"o";"o";"p";"s";zero;"."]%char, 0%Z) /\
  s 1 = Some (list_ascii_of_string "panic: Any { .. }") /\ s 2 = None.
Proof. vm_compute. repeat split. Qed.

(** C45, particles: the distance function of the C program gets views of both events with their ids,
    the numbers of their weights, and all momenta grouped by particle id. *)
Theorem C45_distance_partial : forall (N : NumOps) fun_ (m : memory N) (ev1 ev2 : Event N) place1 place2,
  exists m' v1 v2,
    c_distance fun_ m ev1 ev2 place1 place2 = fun_ m' v1 v2 /\
    (forall a, (a < m_next m)%Z -> m_at m' a = m_at m a) /\
    vw_id v1 = ev_id ev1 /\ vw_id v2 = ev_id ev2 /\
    vw_n_weights v1 = List.length (ev_weights ev1) /\ vw_n_weights v2 = List.length (ev_weights ev2) /\
    shows_particles m' v1 (ev_out ev1) /\ shows_particles m' v2 (ev_out ev2).
Proof.
  intros N fun_ m ev1 ev2 place1 place2. unfold c_distance.
  pose proof (event_view_spec m ev1 place1) as H1. destruct (event_view m ev1 place1) as [v1 m1].
  pose proof (event_view_spec m1 ev2 place2) as H2. destruct (event_view m1 ev2 place2) as [v2 m2].
  destruct H1 as (E1 & A1 & _ & B1 & C1), H2 as (E2 & A2 & _ & B2 & C2).
  exists m2, v1, v2. split; [reflexivity|]. split; [apply (extends_trans _ _ _ E1 E2)|].
  split; [auto|]. split; [auto|]. split; [auto|]. split; [auto|]. split; [|apply shown_shows; exact C2].
  apply shown_shows. eapply shown_extends; eauto.
Qed.
Print Assumptions C45_distance_partial.

(** C45, weights: refuted.  For no event with weights does the view show the weights: the address
    given to the C program is that of the pointer to the weights. *)
Theorem C45_weights_refuted : forall (N : NumOps) fun_ (m : memory N) (ev1 ev2 : Event N) place1 place2,
  weights_at m place1 (ev_weights ev1) -> weights_at m place2 (ev_weights ev2) ->
  (place1 < m_next m)%Z -> (place2 < m_next m)%Z -> ev_weights ev1 <> [] -> ev_weights ev2 <> [] ->
  exists m' v1 v2,
    c_distance fun_ m ev1 ev2 place1 place2 = fun_ m' v1 v2 /\
    ~ shows_weights m' v1 (ev_weights ev1) /\ ~ shows_weights m' v2 (ev_weights ev2).
Proof.
  intros N fun_ m ev1 ev2 place1 place2 (a1 & P1 & _) (a2 & P2 & _) L1 L2 N1 N2. unfold c_distance.
  pose proof (event_view_spec m ev1 place1) as H1. destruct (event_view m ev1 place1) as [v1 m1].
  pose proof (event_view_spec m1 ev2 place2) as H2. destruct (event_view m1 ev2 place2) as [v2 m2].
  destruct H1 as (E1 & _ & W1 & _), H2 as (E2 & _ & W2 & _).
  destruct (extends_trans _ _ _ E1 E2) as [_ E].
  exists m2, v1, v2. split; [reflexivity|]. split; intros [_ H].
  - destruct (ev_weights ev1) as [|w t]; [congruence|]. specialize (H 0 w eq_refl). rewrite W1, Z.add_0_r, E in H by exact L1. congruence.
  - destruct (ev_weights ev2) as [|w t]; [congruence|]. specialize (H 0 w eq_refl). rewrite W2, Z.add_0_r, E in H by exact L2. congruence.
Qed.
Print Assumptions C45_weights_refuted.

(** C45, conversion: from a view that shows weights and particles, the event with this id, these
    weights and these particles is made. *)
Theorem C45_from_view : forall (N : NumOps) (D : N -> Prop) sort (m : memory N) v weights out,
  cmp_on N D -> sort_ok sort -> shows_weights m v weights -> shows_particles m v out ->
  let given := map (fun x => (fst x, fv_from (fv_e (snd x)) (fv_x (snd x)) (fv_y (snd x)) (fv_z (snd x)))) (particles_of out) in
  Forall (fun x => mom_in D (snd x)) given ->
  exists ev, event_of_view sort m v = Some ev /\
    ev_id ev = vw_id v /\ ev_weights ev = weights /\ grouped (ev_out ev) /\ Permutation (particles_of (ev_out ev)) given.
Proof.
  intros N D sort m v weights out HD Hsort Hw Hp given Hin.
  eexists. split; [apply (read_back sort _ _ _ _ Hw Hp)|]. cbn [ev_id ev_weights ev_out build b_out b_weights].
  split; [reflexivity|]. split; [reflexivity|].
  destruct (@compress_spec N D HD sort Hsort given) as (A & _ & B).
  { revert Hin. apply Forall_impl. auto. }
  split; [exact A|]. symmetry. exact B.
Qed.
Print Assumptions C45_from_view.

(** An event in memory: two weights, an electron, and two photons *)
Definition cx_event : Event ZN :=
  mkEvent (N := ZN) 3 [5; 6]%Z [(22, [fv_from (N := ZN) 5 3 4 0; fv_from (N := ZN) 1 0 0 1]); (11, [fv_from (N := ZN) 13 5 12 0])]%Z.
Definition cx_mem : memory ZN := snd (alloc (mkMem (fun _ => None) 100) [WAddr 102; WLen 2; WNum (N := ZN) 5%Z; WNum (N := ZN) 6%Z]).
Example C45_case :
  weights_at cx_mem 100 (ev_weights cx_event) /\ (100 < m_next cx_mem)%Z /\
  (let '(v, m) := event_view cx_mem cx_event 100 in shows_particles m v (ev_out cx_event) /\ ~ shows_weights m v (ev_weights cx_event)) /\
  (exists v, shows_weights cx_mem v [5; 6]%Z /\ shows_particles cx_mem v [] ).
Proof.
  assert (W : weights_at cx_mem 100 (ev_weights cx_event)).
  { exists 102%Z. split; [reflexivity|]. split; [reflexivity|]. intros [|[|[|i]]] w H; cbn in H; try discriminate; injection H as <-; reflexivity. }
  split; [exact W|]. split; [reflexivity|]. split.
  - pose proof (event_view_spec cx_mem cx_event 100) as H. destruct (event_view cx_mem cx_event 100) as [v m].
    destruct H as ([_ E] & _ & Ew & _ & S). split; [apply shown_shows; exact S|]. intros [_ H]. specialize (H 0 5%Z eq_refl).
    rewrite Ew, Z.add_0_r, E in H by reflexivity. discriminate.
  - exists (mkEventView 0 102 0 2 0). split; split; auto.
    + intros [|[|[|i]]] w H; cbn in H; try discriminate; injection H as <-; reflexivity.
    + intros [|i] ? ?; discriminate.
Qed.
