From Verif Require Import Base BaseProofs Num ModelText ModelStripper SpecScaling.
From Coq Require Import Lia Permutation.

Section Scaling.
Context (N : NumOps).
Notation entry := (text * (N * nat))%type.

Lemma upd_entry_names name init f : forall l : list entry, forall n, In n (map fst (upd_entry N name init f l)) <-> n = name \/ In n (map fst l).
Proof.
  induction l as [|[m x] l IH]; intros n; cbn [upd_entry].
  - cbn. intuition congruence.
  - destruct (list_eq_dec ascii_dec m name) as [->|Hm]; cbn; [intuition congruence|]. rewrite IH. intuition congruence.
Qed.
Lemma upd_entry_nodup name init f : forall l : list entry, NoDup (map fst l) -> NoDup (map fst (upd_entry N name init f l)).
Proof.
  induction l as [|[m x] l IH]; intros H; cbn [upd_entry].
  - repeat constructor. intros [].
  - cbn in H. apply NoDup_cons_iff in H as [H1 H2]. destruct (list_eq_dec ascii_dec m name) as [->|Hm]; cbn; constructor; auto.
    rewrite upd_entry_names. intros [->|H]; [congruence|contradiction].
Qed.
Lemma upd_entry_in name init f : forall l : list entry, NoDup (map fst l) -> forall n x, In (n, x) (upd_entry N name init f l) <->
  (n <> name /\ In (n, x) l) \/ (n = name /\ ((exists y, In (name, y) l /\ x = f y) \/ (~ In name (map fst l) /\ x = f init))).
Proof.
  induction l as [|[m x0] l IH]; intros Hnd n x; cbn [upd_entry].
  - cbn. split.
    + intros [H|[]]. injection H as <- <-. right. split; [reflexivity|]. right. tauto.
    + intros [[_ []]|[-> [(y & [] & _)|[_ ->]]]]. left. reflexivity.
  - cbn in Hnd. apply NoDup_cons_iff in Hnd as [Hm Hnd]. destruct (list_eq_dec ascii_dec m name) as [->|Hne]; cbn [In map fst].
    + split.
      * intros [H|H]; [injection H as <- <-; right; split; [reflexivity|]; left; eauto|].
        assert (n <> name) by (intros ->; apply Hm; apply (in_map fst) in H; exact H). left. auto.
      * intros [[Hn [H|H]]|[-> [(y & [H|H] & ->)|[H _]]]].
        -- injection H as <- _. congruence.
        -- right. exact H.
        -- left. injection H as <-. reflexivity.
        -- exfalso. apply Hm. apply (in_map fst) in H. exact H.
        -- exfalso. apply H. left. reflexivity.
    + rewrite IH by exact Hnd. split.
      * intros [H|[[Hn H]|[-> [(y & H & ->)|[H ->]]]]].
        -- injection H as <- <-. left. auto.
        -- left. auto.
        -- right. split; [reflexivity|]. left. eauto.
        -- right. split; [reflexivity|]. right. split; [|reflexivity]. intros [H2|H2]; [congruence|contradiction].
      * intros [[Hn [H|H]]|[-> [(y & [H|H] & ->)|[H ->]]]].
        -- left. exact H.
        -- right. left. auto.
        -- injection H as H _. congruence.
        -- right. right. split; [reflexivity|]. left. eauto.
        -- right. right. split; [reflexivity|]. right. split; [|reflexivity]. intros H2. apply H. right. exact H2.
Qed.

Lemma norms_app name a b : norms (N:=N) name (a ++ b) = norms name a ++ norms name b.
Proof. apply flat_map_app. Qed.
Lemma events_app name a b : events (N:=N) name (a ++ b) = events name a ++ events name b.
Proof. apply flat_map_app. Qed.
Lemma mentioned_app name a b : mentioned (N:=N) name (a ++ b) <-> mentioned name a \/ mentioned name b.
Proof.
  unfold mentioned. split.
  - intros (t & H & Hn). apply in_app_or in H as [H|H]; [left|right]; eauto.
  - intros [(t & H & Hn)|(t & H & Hn)]; exists t; (split; [apply in_or_app; auto|exact Hn]).
Qed.
Lemma not_mentioned name tags : ~ mentioned (N:=N) name tags -> norms name tags = [] /\ events name tags = [].
Proof.
  intros H. assert (Hin : forall t, In t tags -> match t with Normalization n _ => n <> name | Eventrecord n _ => n <> name end).
  { intros t Ht. destruct t; intros E; apply H; exists (Normalization name0 scale) + (eexists; split; [exact Ht|exact E]); auto. }
  clear H. unfold norms, events. induction tags as [|t tags IH]; [split; reflexivity|].
  destruct IH as [H1 H2]; [intros; apply Hin; right; assumption|]. cbn [flat_map]. rewrite H1, H2.
  pose proof (Hin t (or_introl eq_refl)) as Ht. destruct t as [n s|n k]; destruct (list_eq_dec ascii_dec n name); try contradiction; auto.
Qed.

Definition last_norm (name : text) (tags : list (stripper_tag N)) : N := last (norms name tags) (minus_one N).
Lemma scaling_fold : forall tags, let l := fold_left (scaling_step N) tags [] in
  NoDup (map fst l) /\ (forall name, In name (map fst l) <-> mentioned name tags) /\
  forall name x, In (name, x) l <-> mentioned name tags /\ x = (last_norm name tags, total name tags).
Proof.
  intros tags. induction tags as [|t tags IH] using rev_ind; cbv zeta.
  - split; [constructor|]. split; [intros name|intros name x]; cbn; (split; [tauto|]).
    + intros (t & [] & _).
    + intros [(t & [] & _) _].
  - cbv zeta in IH. rewrite fold_left_app. cbn [fold_left]. set (l := fold_left (scaling_step N) tags []) in *.
    destruct IH as (Hnd & Hnames & Hin).
    assert (H1 : forall name, mentioned (N:=N) name [t] <-> match t with Normalization n _ => n = name | Eventrecord n _ => n = name end).
    { intros name. split; [intros (t' & [->|[]] & H); exact H|]. intros H. exists t. split; [left; reflexivity|exact H]. }
    assert (Hdec : forall name, mentioned (N:=N) name tags \/ ~ mentioned (N:=N) name tags).
    { intros name. destruct (in_dec (list_eq_dec ascii_dec) name (map fst l)) as [H|H]; rewrite Hnames in H; auto. }
    destruct t as [n s|n k]; cbn [scaling_step].
    + split; [apply upd_entry_nodup; exact Hnd|]. split.
      { intros name. rewrite upd_entry_names, Hnames, mentioned_app, H1. intuition congruence. }
      intros name x. rewrite upd_entry_in by exact Hnd. rewrite mentioned_app, H1. unfold last_norm, total. rewrite norms_app, events_app.
      destruct (list_eq_dec ascii_dec n name) as [->|Hne].
      * replace (norms name [Normalization name s]) with [s] by (unfold norms; cbn; destruct (list_eq_dec ascii_dec name name); [reflexivity|congruence]).
        replace (events (N:=N) name [Normalization name s]) with (@nil nat) by reflexivity. rewrite last_last, app_nil_r. split.
        -- intros [[H _]|[_ [(y & Hy & ->)|[Hno ->]]]]; [congruence| |].
           ++ apply Hin in Hy as [_ ->]. auto.
           ++ rewrite Hnames in Hno. destruct (not_mentioned _ _ Hno) as [_ ->]. auto.
        -- intros [_ ->]. right. split; [reflexivity|]. destruct (Hdec name) as [Hm|Hm].
           ++ left. exists (last_norm name tags, total name tags). split; [apply Hin; auto|reflexivity].
           ++ right. rewrite Hnames. split; [exact Hm|]. destruct (not_mentioned _ _ Hm) as [_ ->]. reflexivity.
      * replace (norms name [Normalization n s]) with (@nil N) by (unfold norms; cbn; destruct (list_eq_dec ascii_dec n name); [congruence|reflexivity]).
        replace (events (N:=N) name [Normalization n s]) with (@nil nat) by reflexivity. rewrite !app_nil_r, Hin. unfold last_norm, total. intuition congruence.
    + split; [apply upd_entry_nodup; exact Hnd|]. split.
      { intros name. rewrite upd_entry_names, Hnames, mentioned_app, H1. intuition congruence. }
      intros name x. rewrite upd_entry_in by exact Hnd. rewrite mentioned_app, H1. unfold last_norm, total. rewrite norms_app, events_app.
      replace (norms name [Eventrecord n k]) with (@nil N) by reflexivity. rewrite app_nil_r.
      destruct (list_eq_dec ascii_dec n name) as [->|Hne].
      * replace (events (N:=N) name [Eventrecord name k]) with [k] by (unfold events; cbn; destruct (list_eq_dec ascii_dec name name); [reflexivity|congruence]).
        rewrite list_sum_app. replace (list_sum [k]) with k by (cbn; lia). split.
        -- intros [[H _]|[_ [(y & Hy & ->)|[Hno ->]]]]; [congruence| |].
           ++ apply Hin in Hy as [_ ->]. auto.
           ++ rewrite Hnames in Hno. destruct (not_mentioned _ _ Hno) as [-> ->]. auto.
        -- intros [_ ->]. right. split; [reflexivity|]. destruct (Hdec name) as [Hm|Hm].
           ++ left. exists (last_norm name tags, total name tags). split; [apply Hin; auto|reflexivity].
           ++ right. rewrite Hnames. split; [exact Hm|]. destruct (not_mentioned _ _ Hm) as [-> ->]. reflexivity.
      * replace (events (N:=N) name [Eventrecord n k]) with (@nil nat) by (unfold events; cbn; destruct (list_eq_dec ascii_dec n name); [congruence|reflexivity]).
        rewrite !app_nil_r, Hin. unfold last_norm, total. intuition congruence.
Qed.

Lemma extract_scaling_spec (tags : list (stripper_tag N)) : NoDup (map fst (extract_scaling tags)) /\
  forall name x, In (name, x) (extract_scaling tags) <->
    mentioned name tags /\ x = ndiv (last (norms name tags) (nsub n0 n1)) (nofnat (total name tags)).
Proof.
  destruct (scaling_fold tags) as (Hnd & _ & Hin). cbv zeta in *. unfold extract_scaling. set (l := fold_left (scaling_step N) tags []) in *. split.
  - rewrite map_map. replace (map _ l) with (map fst l); [exact Hnd|]. apply map_ext. intros [n [s k]]. reflexivity.
  - intros name x. rewrite in_map_iff. split.
    + intros ([n [s k]] & H & Hl). injection H as -> <-. apply Hin in Hl as [Hm Hx]. injection Hx as -> ->. auto.
    + intros [Hm ->]. exists (name, (last_norm name tags, total name tags)). split; [reflexivity|]. apply Hin. auto.
Qed.

Lemma scaling_perm (tags tags' : list (stripper_tag N)) : Permutation tags tags' -> (forall name, length (norms name tags) <= 1) ->
  forall name x, In (name, x) (extract_scaling tags) <-> In (name, x) (extract_scaling tags').
Proof.
  intros Hp Hone name x. rewrite !(proj2 (extract_scaling_spec _)).
  assert (Hn : norms name tags = norms name tags').
  { assert (H : Permutation (norms name tags) (norms name tags')) by (apply Permutation_flat_map; exact Hp).
    specialize (Hone name). destruct (norms name tags) as [|s [|s2 t]]; [symmetry; apply Permutation_nil; exact H| |cbn in Hone; lia].
    symmetry. apply Permutation_length_1_inv. exact H. }
  assert (Ht : total name tags = total name tags').
  { unfold total. assert (H : Permutation (events name tags) (events name tags')) by (apply Permutation_flat_map; exact Hp).
    revert H. generalize (events name tags) (events name tags'). intros a b H. unfold list_sum. induction H; cbn; lia. }
  assert (Hm : mentioned name tags <-> mentioned name tags').
  { unfold mentioned. split; intros (t & H & Hx); exists t; (split; [|exact Hx]); [eapply Permutation_in; eauto|eapply Permutation_in; [apply Permutation_sym|]; eauto]. }
  rewrite Hn, Ht, Hm. reflexivity.
Qed.
End Scaling.
