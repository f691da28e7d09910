(** [next_permutation] visits every arrangement, in lexicographic order. *)
From Verif Require Import Base BaseProofs ModelDistance.
Set Implicit Arguments.

(** *** All arrangements of a list *)
Fixpoint insertions {A} (x : A) (l : list A) : list (list A) :=
  (x :: l) :: match l with [] => [] | y :: t => map (cons y) (insertions x t) end.
Fixpoint perms {A} (l : list A) : list (list A) :=
  match l with [] => [[]] | x :: t => flat_map (insertions x) (perms t) end.

Lemma insertions_in A (x : A) l1 l2 : In (l1 ++ x :: l2) (insertions x (l1 ++ l2)).
Proof.
  induction l1 as [|a l1 IH]; cbn.
  - destruct l2; left; auto.
  - right. apply in_map, IH.
Qed.

Lemma insertions_len A (x : A) l : length (insertions x l) = S (length l).
Proof. induction l; cbn; auto. rewrite map_length, IHl. auto. Qed.

Lemma insertions_perm A (x : A) l m : In m (insertions x l) -> Permutation (x :: l) m.
Proof.
  revert m. induction l as [|y t IH]; cbn; intros m [<-|H]; auto; [easy|].
  apply in_map_iff in H. destruct H as (m' & <- & H). rewrite perm_swap. constructor. auto.
Qed.

Lemma perms_complete A (l m : list A) : Permutation l m -> In m (perms l).
Proof.
  revert m. induction l as [|x t IH]; intros m H.
  - apply Permutation_nil in H. subst. left; auto.
  - assert (Hx : In x m) by (eapply Permutation_in; [exact H|left; auto]).
    apply in_split in Hx. destruct Hx as (m1 & m2 & ->).
    apply Permutation_cons_app_inv in H. cbn. apply in_flat_map. exists (m1 ++ m2). split; auto.
    apply insertions_in.
Qed.

Lemma perms_sound A (l m : list A) : In m (perms l) -> Permutation l m.
Proof.
  revert m. induction l as [|x t IH]; intros m; cbn.
  - intros [<-|[]]. constructor.
  - intros H. apply in_flat_map in H. destruct H as (m' & H1 & H2). apply IH in H1.
    apply insertions_perm in H2. rewrite <- H2. constructor. auto.
Qed.

Lemma perms_length A (l : list A) : length (perms l) = fact (length l).
Proof.
  induction l as [|x t IH]; cbn [perms length fact]; auto. rewrite <- IH.
  assert (H : forall ps : list (list A), (forall m, In m ps -> length m = length t) ->
    length (flat_map (insertions x) ps) = S (length t) * length ps).
  { induction ps as [|p ps IHp]; intros Hps; cbn [flat_map length]; [lia|].
    rewrite app_length, insertions_len, IHp, (Hps p); [lia|left; auto|intros; apply Hps; right; auto]. }
  rewrite H; [lia|]. intros m Hm. apply perms_sound in Hm. symmetry. apply Permutation_length, Hm.
Qed.

(** *** Lists of natural numbers *)
Fixpoint lexlt (l l' : list nat) : Prop :=
  match l, l' with
  | a :: t, b :: t' => a < b \/ (a = b /\ lexlt t t')
  | _, _ => False
  end.

Fixpoint lexltb (l l' : list nat) : bool :=
  match l, l' with
  | a :: t, b :: t' => (a <? b) || ((a =? b) && lexltb t t')
  | _, _ => false
  end.

Lemma lexltb_spec l l' : lexltb l l' = true <-> lexlt l l'.
Proof.
  revert l'. induction l as [|a t IH]; intros [|b t']; cbn [lexltb lexlt]; try (split; [discriminate|tauto]).
  rewrite Bool.orb_true_iff, Bool.andb_true_iff, Nat.ltb_lt, Nat.eqb_eq, IH. tauto.
Qed.

Lemma lexlt_irrefl l : ~ lexlt l l.
Proof. induction l; cbn; auto. intros [H|[_ H]]; [lia|auto]. Qed.

Lemma lexlt_trans l1 l2 l3 : lexlt l1 l2 -> lexlt l2 l3 -> lexlt l1 l3.
Proof.
  revert l2 l3. induction l1 as [|a t IH]; intros [|b t2] [|c t3]; cbn; try tauto.
  intros [H|[-> H]] [H'|[-> H']]; [left; lia|left; auto|left; auto|right; split; auto; eauto].
Qed.

Lemma sorted_least l : StronglySorted le l -> forall m, Permutation l m -> l = m \/ lexlt l m.
Proof.
  induction l as [|a t IH]; intros Hs m Hm.
  - apply Permutation_nil in Hm. auto.
  - inversion Hs as [|? ? H1 H2]; subst. rewrite Forall_forall in H2. destruct m as [|b m'].
    { symmetry in Hm. apply Permutation_nil in Hm. discriminate. }
    assert (Hb : In b (a :: t)) by (eapply Permutation_in; [symmetry; exact Hm|left; auto]).
    assert (a <= b) by (destruct Hb as [->|Hb]; auto). cbn.
    destruct (Nat.eq_dec a b) as [->|Hne]; [|right; left; lia].
    apply Permutation_cons_inv in Hm. destruct (IH H1 _ Hm) as [->|H']; auto.
Qed.

Lemma pivot_spec a t : StronglySorted ge t ->
  match exchange_pivot Nat.leb a t with
  | Some (y, t') => exists u v, t = u ++ y :: v /\ t' = u ++ a :: v /\ a < y /\ Forall (fun x => x <= a) v
  | None => Forall (fun x => x <= a) t
  end.
Proof.
  induction t as [|y t IH]; intros Hs; cbn; [constructor|]. inversion Hs as [|? ? H1 H2]; subst.
  specialize (IH H1). destruct (exchange_pivot Nat.leb a t) as [[z t'']|].
  - destruct IH as (u & v & -> & -> & H3 & H4). exists (y :: u), v. auto.
  - destruct (Nat.leb_spec y a).
    + constructor; auto.
    + exists [], t. auto.
Qed.

Lemma SS_app_inv A (R : A -> A -> Prop) (l1 l2 : list A) : StronglySorted R (l1 ++ l2) ->
  StronglySorted R l1 /\ StronglySorted R l2 /\ forall x y, In x l1 -> In y l2 -> R x y.
Proof.
  induction l1 as [|a l1 IH]; cbn; intros H.
  - split; [constructor|]. split; auto. intros x y [].
  - inversion H as [|? ? H1 H2]; subst. destruct (IH H1) as (A1 & A2 & A3). apply Forall_app in H2.
    destruct H2 as [H2 H3]. rewrite Forall_forall in H3. split; [constructor; auto|]. split; auto.
    intros x y [<-|Hx] Hy; auto.
Qed.

Lemma SS_app_intro A (R : A -> A -> Prop) (l1 l2 : list A) : StronglySorted R l1 -> StronglySorted R l2 ->
  (forall x y, In x l1 -> In y l2 -> R x y) -> StronglySorted R (l1 ++ l2).
Proof.
  induction l1 as [|a l1 IH]; cbn; intros H1 H2 H3; auto. inversion H1; subst. constructor; [apply IH; auto|].
  apply Forall_app. split; auto. apply Forall_forall. auto.
Qed.

Lemma SS_rev A (R : A -> A -> Prop) (l : list A) : StronglySorted R l -> StronglySorted (fun x y => R y x) (rev l).
Proof.
  induction 1 as [|a l H IH HF]; cbn; [constructor|]. apply SS_app_intro; auto.
  - repeat constructor.
  - rewrite Forall_forall in HF. intros x y Hx [<-|[]]. apply HF. apply in_rev. auto.
Qed.

Lemma np_spec l :
  match next_permutation Nat.leb l with
  | Some l' => Permutation l l' /\ lexlt l l' /\
               forall m, Permutation l m -> lexlt l m -> l' = m \/ lexlt l' m
  | None => StronglySorted ge l /\ forall m, Permutation l m -> ~ lexlt l m
  end.
Proof.
  induction l as [|a t IH]; cbn.
  { split; [constructor|]. auto. }
  destruct (next_permutation Nat.leb t) as [t'|].
  - destruct IH as (H1 & H2 & H3). split; [constructor; auto|]. split; [cbn; auto|].
    intros [|b m'] Hm Hl; [destruct Hl|]. cbn in Hl. destruct Hl as [Hl|[-> Hl]].
    + right. cbn. auto.
    + apply Permutation_cons_inv in Hm. destruct (H3 _ Hm Hl) as [->|]; auto. right. cbn. auto.
  - destruct IH as [Hs Hmax]. pose proof (@pivot_spec a t Hs) as Hp.
    destruct (exchange_pivot Nat.leb a t) as [[y t'']|].
    + destruct Hp as (u & v & -> & -> & Hay & Hv). rewrite Forall_forall in Hv.
      apply SS_app_inv in Hs. destruct Hs as (S1 & S2 & S3). inversion S2 as [|? ? S4 S5]; subst.
      rewrite Forall_forall in S5.
      split; [|split].
      * rewrite <- Permutation_rev. rewrite <- !Permutation_middle. apply perm_swap.
      * cbn. auto.
      * intros [|b m'] Hm Hl; [destruct Hl|]. cbn in Hl. destruct Hl as [Hl|[-> Hl]].
        2:{ apply Permutation_cons_inv in Hm. destruct (Hmax _ Hm Hl). }
        assert (Hb : In b (a :: u ++ y :: v)) by (eapply Permutation_in; [symmetry; exact Hm|left; auto]).
        assert (Hyb : y <= b).
        { destruct Hb as [->|Hb]; [lia|]. apply in_app_iff in Hb. destruct Hb as [Hb|[->|Hb]]; auto.
          - specialize (S3 b y Hb (or_introl eq_refl)). lia.
          - specialize (Hv _ Hb). lia. }
        destruct (Nat.eq_dec y b) as [->|]; [|right; cbn; lia].
        assert (Hm' : Permutation (rev (u ++ a :: v)) m').
        { rewrite <- Permutation_rev. apply (Permutation_cons_inv (a := b)). rewrite <- Hm.
          rewrite <- !Permutation_middle. apply perm_swap. }
        apply sorted_least in Hm'.
        -- destruct Hm' as [->|]; auto. right. cbn. auto.
        -- apply (@SS_rev _ ge). apply SS_app_intro; auto.
           ++ constructor; auto. apply Forall_forall. intros x Hx. specialize (Hv _ Hx). lia.
           ++ intros x z Hx [<-|Hz]; [specialize (S3 x b Hx (or_introl eq_refl)); lia|].
              apply S3; cbn; auto.
    + split.
      * constructor; [exact Hs|]. eapply Forall_impl; [|exact Hp]. cbn. lia.
      * intros [|b m'] Hm Hl; [destruct Hl|]. cbn in Hl. rewrite Forall_forall in Hp.
        assert (Hb : In b (a :: t)) by (eapply Permutation_in; [symmetry; exact Hm|left; auto]).
        destruct Hl as [Hl|[-> Hl]].
        -- destruct Hb as [->|Hb]; [lia|]. specialize (Hp _ Hb). lia.
        -- apply Permutation_cons_inv in Hm. destruct (Hmax _ Hm Hl).
Qed.

(** *** Any total preorder, by way of ranks *)
Section Rank.
Context {A : Type} (leb : A -> A -> bool) (l0 : list A).
Hypothesis Hpre : total_preorder_on (fun x => In x l0) leb.

Definition rank (x : A) : nat := length (filter (fun y => negb (leb x y)) l0).

Lemma filter_len_le (f g : A -> bool) l : (forall x, In x l -> f x = true -> g x = true) ->
  length (filter f l) <= length (filter g l).
Proof.
  induction l as [|a l IH]; cbn; intros H; auto.
  assert (IH' : length (filter f l) <= length (filter g l)) by (apply IH; auto).
  specialize (H a (or_introl eq_refl)). destruct (f a), (g a); cbn; try lia.
Qed.

Lemma filter_len_lt (f g : A -> bool) l : (forall x, In x l -> f x = true -> g x = true) ->
  (exists x, In x l /\ f x = false /\ g x = true) -> length (filter f l) < length (filter g l).
Proof.
  induction l as [|a l IH]; cbn; intros H (x & Hx & Hf & Hg); [destruct Hx|].
  assert (IHle : length (filter f l) <= length (filter g l)) by (apply filter_len_le; auto).
  pose proof (H a (or_introl eq_refl)) as Ha. destruct Hx as [->|Hx].
  - rewrite Hf, Hg. cbn. lia.
  - assert (length (filter f l) < length (filter g l)) by (apply IH; eauto).
    destruct (f a), (g a); cbn; try lia.
Qed.

Lemma leb_rank x y : In x l0 -> In y l0 -> leb x y = (rank x <=? rank y).
Proof.
  intros Hx Hy. destruct Hpre as [Htot Htr]. destruct (leb x y) eqn:E.
  - symmetry. apply Nat.leb_le. apply filter_len_le. intros z Hz Hzx. apply Bool.negb_true_iff in Hzx.
    apply Bool.negb_true_iff. destruct (leb y z) eqn:F; auto. rewrite (Htr x y z) in Hzx; auto.
  - symmetry. apply Nat.leb_gt. apply filter_len_lt.
    + intros z Hz Hzx. apply Bool.negb_true_iff in Hzx. apply Bool.negb_true_iff.
      destruct (leb x z) eqn:F; auto. assert (G : leb y x = true) by (destruct (Htot x y); auto; congruence).
      rewrite (Htr y x z) in Hzx; auto.
    + exists y. split; auto. split.
      * apply Bool.negb_false_iff. destruct (Htot y y); auto.
      * rewrite E. auto.
Qed.

Lemma exchange_rank a t : In a l0 -> (forall x, In x t -> In x l0) ->
  exchange_pivot Nat.leb (rank a) (map rank t)
  = match exchange_pivot leb a t with Some (y, t') => Some (rank y, map rank t') | None => None end.
Proof.
  intros Ha. induction t as [|y t IH]; intros Ht; cbn; auto.
  rewrite IH by (intros; apply Ht; right; auto).
  destruct (exchange_pivot leb a t) as [[z t'']|]; cbn; auto.
  rewrite (leb_rank y a); auto; [|apply Ht; left; auto]. destruct (rank y <=? rank a); auto.
Qed.

Lemma np_rank l : (forall x, In x l -> In x l0) ->
  next_permutation Nat.leb (map rank l) = option_map (map rank) (next_permutation leb l).
Proof.
  induction l as [|a t IH]; intros Hl; cbn; auto.
  rewrite IH by (intros; apply Hl; right; auto).
  destruct (next_permutation leb t) as [t'|]; cbn; auto.
  rewrite exchange_rank; [|apply Hl; left; auto|intros; apply Hl; right; auto].
  destruct (exchange_pivot leb a t) as [[y t']|]; cbn; auto. rewrite map_rev. auto.
Qed.

Lemma exchange_perm a t y t' : exchange_pivot leb a t = Some (y, t') -> Permutation (a :: t) (y :: t').
Proof.
  revert t'. induction t as [|b t IH]; cbn; intros t' H; [discriminate|].
  destruct (exchange_pivot leb a t) as [[z t'']|].
  - injection H; intros <- <-. rewrite perm_swap, (IH _ eq_refl). apply perm_swap.
  - destruct (leb b a); [discriminate|]. injection H; intros <- <-. apply perm_swap.
Qed.

Lemma np_perm l l' : next_permutation leb l = Some l' -> Permutation l l'.
Proof.
  revert l'. induction l as [|a t IH]; cbn; intros l' H; [discriminate|].
  destruct (next_permutation leb t) as [t'|].
  - injection H; intros <-. constructor. auto.
  - destruct (exchange_pivot leb a t) as [[y t']|] eqn:E; [|discriminate]. injection H; intros <-.
    rewrite <- Permutation_rev. apply exchange_perm; auto.
Qed.

(** The number of arrangements still to come. *)
Definition remaining (l : list A) : nat :=
  length (filter (lexltb (map rank l)) (map (map rank) (perms l0))).

Lemma remaining_bound l : Permutation l0 l -> remaining l < fact (length l0).
Proof.
  intros H. unfold remaining. rewrite <- (perms_length l0), <- (map_length (map rank) (perms l0)).
  set (ps := map (map rank) (perms l0)).
  assert (Hin : In (map rank l) ps) by (apply in_map, perms_complete; auto).
  clearbody ps. induction ps as [|p ps IH]; cbn; [destruct Hin|].
  assert (Hle : length (filter (lexltb (map rank l)) ps) <= length ps).
  { clear. induction ps as [|a ps IH]; cbn; auto. destruct (lexltb _ a); cbn; lia. }
  destruct Hin as [->|Hin].
  - destruct (lexltb (map rank l) (map rank l)) eqn:E; cbn; [|lia].
    apply lexltb_spec, lexlt_irrefl in E. destruct E.
  - specialize (IH Hin). destruct (lexltb (map rank l) p); cbn; lia.
Qed.

Lemma remaining_next l l' : Permutation l0 l -> next_permutation leb l = Some l' -> remaining l' < remaining l.
Proof.
  intros H E. assert (Hl : forall x, In x l -> In x l0) by (intros x; apply Permutation_in; symmetry; auto).
  pose proof (np_spec (map rank l)) as Hs. rewrite np_rank, E in Hs by auto. cbn in Hs.
  destruct Hs as (_ & Hlt & _). unfold remaining. apply np_perm in E.
  assert (Hin : In (map rank l') (map (map rank) (perms l0))).
  { apply in_map, perms_complete. rewrite H. auto. }
  revert Hin. generalize (map (map rank) (perms l0)) as ps. intros ps Hin.
  clear - Hlt Hin.
  assert (Hle : forall ps, length (filter (lexltb (map rank l')) ps) <= length (filter (lexltb (map rank l)) ps)).
  { clear - Hlt. induction ps as [|p ps IH]; cbn; auto.
    destruct (lexltb (map rank l') p) eqn:E1; cbn.
    - apply lexltb_spec in E1. assert (E2 : lexltb (map rank l) p = true) by (apply lexltb_spec; eapply lexlt_trans; eauto).
      rewrite E2. cbn. lia.
    - destruct (lexltb (map rank l) p); cbn; lia. }
  induction ps as [|p ps IH]; cbn; [destruct Hin|]. destruct Hin as [->|Hin].
  - assert (E1 : lexltb (map rank l) (map rank l') = true) by (apply lexltb_spec; auto). rewrite E1.
    destruct (lexltb (map rank l') (map rank l')) eqn:E2; [apply lexltb_spec, lexlt_irrefl in E2; destruct E2|].
    cbn. specialize (Hle ps). lia.
  - specialize (IH Hin). destruct (lexltb (map rank l') p) eqn:E1; cbn.
    + apply lexltb_spec in E1. assert (E2 : lexltb (map rank l) p = true) by (apply lexltb_spec; eapply lexlt_trans; eauto).
      rewrite E2. cbn. lia.
    + destruct (lexltb (map rank l) p); cbn; lia.
Qed.

(** Induction over the enumeration: whatever is true of a list once it is true of the next
    arrangement. *)
Definition tied (x y : A) : Prop := leb x y = true /\ leb y x = true.

Lemma rank_tied l m : (forall x, In x l -> In x l0) -> (forall x, In x m -> In x l0) ->
  map rank l = map rank m -> Forall2 tied l m.
Proof.
  revert m. induction l as [|a l IH]; intros [|b m] H1 H2 E; cbn in E; try discriminate; constructor.
  - injection E; intros _ E1. split; rewrite leb_rank; try (apply Nat.leb_le; lia);
      first [apply H1; left; reflexivity|apply H2; left; reflexivity].
  - injection E; intros E2 _. apply IH; auto; intros; [apply H1|apply H2]; right; auto.
Qed.

(** What [next_permutation] does to a list with the elements of [l0]. *)
Lemma np_step l : Permutation l0 l ->
  match next_permutation leb l with
  | Some l' => Permutation l0 l' /\ forall m, Permutation l0 m -> lexlt (map rank l) (map rank m) ->
                 Forall2 tied l' m \/ lexlt (map rank l') (map rank m)
  | None => forall m, Permutation l0 m -> ~ lexlt (map rank l) (map rank m)
  end.
Proof.
  intros H. assert (Hl : forall l, Permutation l0 l -> forall x, In x l -> In x l0).
  { intros l1 H1 x. apply Permutation_in. symmetry; auto. }
  pose proof (np_spec (map rank l)) as Hs. rewrite np_rank in Hs by (apply Hl; exact H).
  destruct (next_permutation leb l) as [l'|] eqn:E; cbn in Hs.
  - apply np_perm in E. assert (H' : Permutation l0 l') by (rewrite H; auto). split; auto.
    intros m Hm Hlt. destruct Hs as (_ & _ & Hs). destruct (Hs (map rank m)) as [E'|]; auto.
    + apply Permutation_map. rewrite <- H. auto.
    + left. apply rank_tied; [apply Hl; exact H'|apply Hl; exact Hm|exact E'].
  - intros m Hm. apply Hs. apply Permutation_map. rewrite <- H. auto.
Qed.

Lemma sorted_start l m : Permutation l0 l -> Permutation l0 m -> ordered leb l ->
  Forall2 tied l m \/ lexlt (map rank l) (map rank m).
Proof.
  intros H Hm Ho. assert (Hl : forall l, Permutation l0 l -> forall x, In x l -> In x l0).
  { intros l1 H1 x. apply Permutation_in. symmetry; auto. }
  assert (Hs : StronglySorted le (map rank l)).
  { specialize (Hl _ H). clear - Ho Hl Hpre. induction Ho as [|a l Ho IH HF]; cbn; constructor.
    - apply IH. intros; apply Hl; right; auto.
    - rewrite Forall_forall in *. intros r Hr. apply in_map_iff in Hr. destruct Hr as (x & <- & Hx).
      specialize (HF _ Hx). rewrite leb_rank in HF; [apply Nat.leb_le; auto|apply Hl; left; auto|apply Hl; right; auto]. }
  destruct (sorted_least Hs (m := map rank m)) as [E|]; auto.
  - apply Permutation_map. rewrite <- H. auto.
  - left. apply rank_tied; [apply Hl; exact H|apply Hl; exact Hm|exact E].
Qed.

End Rank.
