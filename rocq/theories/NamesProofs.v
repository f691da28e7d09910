(** Proofs about HepMC records: the line with the names of the weights. *)
From Verif Require Import Base BaseProofs Num ModelEvent ModelText SpecText SpecFormats SpecHepMC TextProofs ReaderProofs ParserProofs
  ModelHepMC HepMCProofs HepMCProofs2 HepMCProofs3.
From Coq Require Import Lia.

(** *** The line of names *)
Lemma string_entry_app s name r : blanks s -> ~ In QUOTE name -> string_entry (s ++ QUOTE :: name ++ QUOTE :: r) = Some (name, r).
Proof.
  intros Hs Hn. unfold string_entry, preceded1. rewrite space1_app; [|exact Hs|cbn; intros [H|H]; discriminate].
  unfold quoted. rewrite ceq_refl. rewrite (find_char _ _ _ Hn), firstn_pre. do 2 f_equal. apply (skipn_pre (name ++ [QUOTE])) || idtac.
  replace (S (length name)) with (length (name ++ [QUOTE])) by (rewrite app_length; cbn; lia).
  replace (name ++ QUOTE :: r) with ((name ++ [QUOTE]) ++ r) by (rewrite <- app_assoc; reflexivity). apply skipn_pre.
Qed.
Lemma blank_not_digit c : blank c -> ~ decimal_digit c.
Proof. intros H. apply ws_not_decimal, blank_ws, H. Qed.
Lemma digits_cut a x b y : Forall decimal_digit a -> Forall decimal_digit b -> heads (fun c => ~ decimal_digit c) x -> heads (fun c => ~ decimal_digit c) y ->
  a ++ x = b ++ y -> a = b /\ x = y.
Proof.
  intros Ha. revert b. induction Ha as [|c a Hc Ha IH]; intros b Hb Hx Hy E.
  - destruct Hb as [|c b Hc Hb]; [auto|]. cbn in E. subst x. cbn in Hx. contradiction.
  - destruct Hb as [|d b Hd Hb]; [cbn in E; subst y; cbn in Hy; contradiction|]. cbn in E. injection E as -> E.
    destruct (IH b Hb Hx Hy E) as [-> ->]. auto.
Qed.
Lemma blanks_cut s x u y : Forall blank s -> Forall blank u -> heads (fun c => ~ blank c) x -> heads (fun c => ~ blank c) y ->
  s ++ x = u ++ y -> s = u /\ x = y.
Proof.
  intros Ha. revert u. induction Ha as [|c a Hc Ha IH]; intros b Hb Hx Hy E.
  - destruct Hb as [|c b Hc Hb]; [auto|]. cbn in E. subst x. cbn in Hx. contradiction.
  - destruct Hb as [|d b Hd Hb]; [cbn in E; subst y; cbn in Hy; contradiction|]. cbn in E. injection E as -> E.
    destruct (IH b Hb Hx Hy E) as [-> ->]. auto.
Qed.
Lemma number_entry_cut v a w b x y : number_entry v a -> number_entry w b -> heads (fun c => ~ decimal_digit c) x -> heads (fun c => ~ decimal_digit c) y ->
  a ++ x = b ++ y -> v = w /\ x = y.
Proof.
  intros (s & ds & -> & [_ Hs] & Hd & Hds & <-) (u & es & -> & [_ Hu] & He & Hes & <-) Hx Hy E. rewrite <- !app_assoc in E.
  assert (Hnb : forall ds r, ds <> [] -> Forall decimal_digit ds -> heads (fun c => ~ blank c) (ds ++ r)).
  { intros [|c l] r Hne Hl; [congruence|]. inversion Hl; subst. cbn. intros Hb. exact (blank_not_digit _ Hb H1). }
  destruct (blanks_cut s (ds ++ x) u (es ++ y) Hs Hu (Hnb _ _ Hd Hds) (Hnb _ _ He Hes) E) as [_ E2].
  destruct (digits_cut _ _ _ _ Hds Hes Hx Hy E2) as [-> ->]. auto.
Qed.
Lemma quoted_heads l t b : quoted_list l t -> l <> [] -> heads (fun c => ~ decimal_digit c) (t ++ b).
Proof.
  intros H Hne. inversion H; subst; [congruence|]. rewrite <- app_assoc. eapply heads_impl; [exact blank_not_digit|]. apply blanks_heads. assumption.
Qed.
Lemma quoted_cut : forall l t, quoted_list l t -> forall l2 t2 b b2, quoted_list l2 t2 -> length l = length l2 -> t ++ b = t2 ++ b2 -> l = l2 /\ b = b2.
Proof.
  induction 1 as [|s name l t Hs Hq Hl IH]; intros l2 t2 b b2 H2 Hlen E; inversion H2 as [|s2 name2 l3 t3 Hs2 Hq2 Hl3]; subst; try discriminate; [auto|].
  rewrite <- !app_assoc in E. cbn [app] in E. rewrite <- !app_assoc in E. cbn [app] in E.
  pose proof (string_entry_app s name (t ++ b) Hs Hq) as A. pose proof (string_entry_app s2 name2 (t3 ++ b2) Hs2 Hq2) as B.
  change quote with QUOTE in E. rewrite E in A. rewrite A in B. injection B as <- E2.
  destruct (IH l3 t3 b b2 Hl3) as [-> ->]; [cbn in Hlen; lia|exact E2|auto].
Qed.
(** the first mark *)
Lemma mark_cut a x b y : a ++ names_mark ++ x = b ++ names_mark ++ y -> ~ occurs names_mark (a ++ [newline]) -> ~ occurs names_mark (b ++ [newline]) -> a = b /\ x = y.
Proof.
  assert (G : forall a x b y s, a = b ++ s -> s ++ names_mark ++ x = names_mark ++ y -> ~ occurs names_mark (a ++ [newline]) -> s = []).
  { clear. intros a x b y s -> E H. destruct s as [|c s]; [reflexivity|]. exfalso. apply H. cbn in E. injection E as -> E. destruct s as [|d s]; cbn in E; [discriminate|].
    injection E as -> E. exists b, (s ++ [newline]). rewrite <- !app_assoc. reflexivity. }
  intros E Ha Hb. destruct (app_split_mid _ _ _ _ E) as [(s & Hs & Hq)|(s & Hs & Hq)].
  - pose proof (G a x b y s Hs (eq_sym Hq) Ha) as ->. rewrite app_nil_r in Hs. split; [exact Hs|]. cbn in Hq. injection Hq as Hq. auto.
  - pose proof (G b y a x s Hs (eq_sym Hq) Hb) as ->. rewrite app_nil_r in Hs. split; [auto|]. cbn in Hq. injection Hq as Hq. auto.
Qed.
Lemma weight_names_fun record l l2 : weight_names record l -> weight_names record l2 -> l <> [] -> l2 <> [] -> l = l2.
Proof.
  intros (a & num & v & t & b & -> & Ha & Hn & Hq & Hl) (a2 & num2 & v2 & t2 & b2 & E & Ha2 & Hn2 & Hq2 & Hl2) H1 H2.
  destruct (mark_cut _ _ _ _ E Ha Ha2) as [-> E2].
  destruct (number_entry_cut _ _ _ _ _ _ Hn Hn2 (quoted_heads _ _ b Hq H1) (quoted_heads _ _ b2 Hq2 H2) E2) as [-> E3].
  apply (quoted_cut l t Hq l2 t2 b b2 Hq2); [congruence|exact E3].
Qed.

(** positions of the wanted names *)
Fixpoint positions (names : list text) (k : nat) (l : list text) : list nat :=
  match l with [] => [] | n :: l => if is_name names n then k :: positions names (S k) l else positions names (S k) l end.
Lemma name_positions_quoted names : forall l t, quoted_list l t -> forall n k b, n <= length l -> name_positions names n k (t ++ b) = Ok (positions names k (firstn n l)).
Proof.
  induction 1 as [|s name l t Hs Hq Hl IH]; intros n k b Hn; [destruct n; [reflexivity|cbn in Hn; lia]|].
  destruct n as [|n]; [reflexivity|]. cbn [name_positions firstn positions].
  rewrite <- app_assoc. cbn [app]. rewrite <- app_assoc. cbn [app]. change quote with QUOTE. rewrite string_entry_app by auto. cbn [or_err bind].
  rewrite IH by (cbn in Hn; lia). cbn [bind]. reflexivity.
Qed.
Lemma positions_length names : forall l k, length (positions names k l) = length (filter (is_name names) l).
Proof. induction l as [|n l IH]; intros k; [reflexivity|]. cbn [positions filter]. destruct (is_name names n); cbn; rewrite IH; reflexivity. Qed.
Lemma positions_pick (N : NumOps) names (W : list N) (P : nat -> N -> Prop) (l0 : list text) : forall l k, (forall i v, nth_error W i = Some v -> P i v) -> k + length l <= length W ->
  (forall i, nth_error l0 (k + i) = nth_error l i \/ nth_error l i = None) ->
  Forall2 (fun name v => exists i, nth_error l0 i = Some name /\ P i v) (filter (is_name names) l) (pick N (positions names k l) W).
Proof.
  induction l as [|n l IH]; intros k HP Hk Hl0; [constructor|]. cbn [positions filter].
  assert (Hrest : forall i, nth_error l0 (S k + i) = nth_error l i \/ nth_error l i = None) by (intros i; specialize (Hl0 (S i)); rewrite Nat.add_succ_r in Hl0; exact Hl0).
  destruct (is_name names n).
  - cbn [pick flat_map]. fold (pick N (positions names (S k) l) W). cbn [length] in Hk. destruct (nth_error W k) as [v|] eqn:E; [|apply nth_error_None in E; lia].
    cbn [app]. constructor; [|apply IH; auto; lia]. exists k. split; [|apply HP; exact E]. destruct (Hl0 0) as [H|H]; [rewrite Nat.add_0_r in H; exact H|discriminate].
  - apply IH; auto. cbn in Hk. lia.
Qed.

(** a line that is complete *)
Lemma names_complete names record l : weight_names record l -> l <> [] ->
  forall a num v r, record = a ++ names_mark ++ num ++ r -> ~ occurs names_mark (a ++ [newline]) -> number_entry v num -> heads (fun c => ~ decimal_digit c) r ->
  exists ps, name_positions names (N.to_nat v) 0 r = Ok ps.
Proof.
  intros (a2 & num2 & v2 & t2 & b2 & -> & Ha2 & Hn2 & Hq2 & Hl2) Hl a num v r E Ha Hn Hr.
  destruct (mark_cut _ _ _ _ E Ha2 Ha) as [_ E2]. destruct (number_entry_cut _ _ _ _ _ _ Hn2 Hn (quoted_heads _ _ b2 Hq2 Hl) Hr E2) as [<- <-].
  exists (positions names 0 (firstn (N.to_nat v2) l)). apply name_positions_quoted; [exact Hq2|lia].
Qed.
