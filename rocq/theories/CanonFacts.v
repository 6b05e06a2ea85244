(** The comparison of names is the canonical order; the replies to waiting interests go out in that order. *)
From Coq Require Import List NArith ZArith Bool Arith Lia Sorted.
From Verif Require Import Base BaseFacts Mon MonFacts Iblt Tlv TlvFacts State NMap NMapFacts
  Codec CodecFacts Bloom Store StoreFacts Producer Partial SpecPartial PartialFacts PartialSteps PartialAnswers Full SpecFull SpecCanon.
Import ListNotations.
Local Open Scope N_scope.

Lemma bytes_cmp_before a b : length a = length b -> (bytes_cmp a b = Lt <-> value_before a b).
Proof.
  revert b. induction a as [|x a IH]; intros [|y b] L; try discriminate L; cbn [bytes_cmp].
  - split; [discriminate|]. intros (p & x & y & u & v & E & _). destruct p; discriminate E.
  - injection L as L. specialize (IH b L). destruct (b2n x ?= b2n y) eqn:C.
    + apply N.compare_eq in C. rewrite IH. split.
      * intros (p & x' & y' & u & v & -> & -> & H). exists (x :: p), x', y', u, v.
        apply b2n_inj in C. subst y. auto.
      * intros (p & x' & y' & u & v & E1 & E2 & H). destruct p as [|z p]; injection E1 as E1 E1'; injection E2 as E2 E2'.
        -- subst. lia.
        -- subst. exists p, x', y', u, v. auto.
    + rewrite N.compare_lt_iff in C. split; [|reflexivity]. intros _. exists [], x, y, a, b. auto.
    + rewrite N.compare_gt_iff in C. split; [discriminate|].
      intros (p & x' & y' & u & v & E1 & E2 & H). destruct p as [|z p]; injection E1 as E1 E1'; injection E2 as E2 E2'; subst; lia.
Qed.
Lemma comp_cmp_before a b : comp_cmp a b = Lt <-> comp_before a b.
Proof.
  unfold comp_cmp, comp_before. destruct (ctype a ?= ctype b) eqn:C.
  - apply N.compare_eq in C. destruct (N.of_nat (length (cval a)) ?= N.of_nat (length (cval b))) eqn:D.
    + apply N.compare_eq in D. assert (length (cval a) = length (cval b)) as L by lia. rewrite (bytes_cmp_before _ _ L).
      split; [tauto|]. intros [H|[(_ & H)|(_ & _ & H)]]; [lia|lia|exact H].
    + rewrite N.compare_lt_iff in D. split; [|reflexivity]. intros _. right. left. split; [exact C|lia].
    + rewrite N.compare_gt_iff in D. split; [discriminate|]. intros [H|[(_ & H)|(_ & H & _)]]; lia.
  - rewrite N.compare_lt_iff in C. split; auto.
  - rewrite N.compare_gt_iff in C. split; [discriminate|]. intros [H|[(H & _)|(H & _)]]; lia.
Qed.
Lemma name_cmp_before a b : name_cmp a b = Lt <-> name_before a b.
Proof.
  revert b. induction a as [|x a IH]; intros [|y b]; cbn [name_cmp].
  - split; [discriminate|]. intros [(c & r & E)|(p & x & y & u & v & E & _)]; [discriminate E|destruct p; discriminate E].
  - split; [|reflexivity]. intros _. left. exists y, b. reflexivity.
  - split; [discriminate|]. intros [(c & r & E)|(p & x' & y & u & v & _ & E & _)]; [discriminate E|destruct p; discriminate E].
  - destruct (comp_cmp x y) eqn:C.
    + apply comp_cmp_eq in C. subst y. rewrite IH. split.
      * intros [(c & r & ->)|(p & x' & y' & u & v & -> & -> & H)]; [left; exists c, r; reflexivity|].
        right. exists (x :: p), x', y', u, v. auto.
      * intros [(c & r & E)|(p & x' & y' & u & v & E1 & E2 & H)].
        -- injection E as E. left. eauto.
        -- destruct p as [|z p]; injection E1 as E1 E1'; injection E2 as E2 E2'; subst.
           ++ apply comp_cmp_before in H. assert (comp_cmp y' y' = Eq) as X by (apply comp_cmp_eq; reflexivity). congruence.
           ++ right. exists p, x', y', u, v. auto.
    + split; [|reflexivity]. intros _. right. exists [], x, y, a, b. apply comp_cmp_before in C. auto.
    + split; [discriminate|]. intros [(c & r & E)|(p & x' & y' & u & v & E1 & E2 & H)].
      * injection E as E _. subst. assert (comp_cmp x x = Eq) as X by (apply comp_cmp_eq; reflexivity). congruence.
      * destruct p as [|z p]; injection E1 as E1 E1'; injection E2 as E2 E2'; subst.
        -- apply comp_cmp_before in H. congruence.
        -- assert (comp_cmp z z = Eq) as X by (apply comp_cmp_eq; reflexivity). congruence.
Qed.
Lemma matches_prefix n d : matches n d <-> is_prefix n (full_name d) = true.
Proof. unfold matches. rewrite is_prefix_iff. reflexivity. Qed.
Lemma reply_first n p d : reply_from_store n p = Some d -> first_match n (pb_store p) d.
Proof.
  unfold reply_from_store. intros H. apply store_find_Some in H as (H1 & H2 & H3).
  split; [exact H1|]. split; [apply matches_prefix; exact H2|]. intros e He Hm. apply matches_prefix in Hm.
  specialize (H3 e He Hm). destruct (name_cmp (full_name d) (full_name e)) eqn:C; [|right; apply name_cmp_before; exact C|congruence].
  left. symmetry. apply name_cmp_eq. exact C.
Qed.
Lemma reply_none n p : reply_from_store n p = None <-> forall e, In e (pb_store p) -> ~ matches n e.
Proof.
  unfold reply_from_store. rewrite store_find_None. split; intros H e He.
  - rewrite matches_prefix. rewrite (H e He). discriminate.
  - specialize (H e He). rewrite matches_prefix in H. destruct (is_prefix n (full_name e)); congruence.
Qed.
Lemma sorted_before (A : Type) (f : A -> name) (l : list A) :
  StronglySorted (fun a b => name_cmp (f a) (f b) = Lt) l -> StronglySorted name_before (map f l).
Proof.
  induction 1 as [|a l _ IH F]; cbn [map]; constructor; auto.
  apply Forall_map. eapply Forall_impl; [|exact F]. intros b H. apply name_cmp_before. exact H.
Qed.
Lemma nm_sorted_before {V} (m : nmap V) : nm_sorted m -> StronglySorted name_before (nm_keys m).
Proof.
  unfold nm_sorted, nm_keys. induction 1 as [|a l _ IH F]; constructor; auto.
  eapply Forall_impl; [|exact F]. intros b H. apply name_cmp_before. exact H.
Qed.

(** ** Replies to one publication *)
Lemma published_name E now iname n b f p p' l : publish E now iname n b f p = (p', Ok l) ->
  l = [] \/ exists d r, l = [d] /\ d_name d = n ++ r.
Proof.
  unfold publish. intros [= _ P]. unfold put_segment in P.
  destruct (name_get_back iname 1) as [c|e|u|]; try discriminate. cbn [obind] in P.
  destruct (if is_segment c then to_segment c else Ok 0) as [k|e|u|]; try discriminate. cbn [obind] in P.
  destruct (k <? _); [|injection P as <-; auto].
  destruct (nth_error _ _) as [x|] eqn:Ex; injection P as <-; [|auto]. right.
  apply nth_error_In, segment_In in Ex as (i & _ & ->). eexists. eexists. split; [reflexivity|].
  cbn [d_name seg_data]. unfold append_segment, append_version. rewrite <- !app_assoc. reflexivity.
Qed.
(** nothing, or one packet under [k] *)
Definition one_under (k : name) (l : list data) : Prop := l = [] \/ exists d r, l = [d] /\ d_name d = k ++ r.
Lemma bind_drop {A} (m : PM A) g (s : pp) : outs ((m ;; mmod g) s) = outs (m s).
Proof.
  unfold mbind, mmod, outs. destruct (m s) as [[s1 o1] [a|e|u|]]; cbn [fst snd]; rewrite ?app_nil_r; reflexivity.
Qed.
Lemma satisfy_one_under K p key s : one_under key (outs (satisfy_one K p key s)).
Proof.
  unfold satisfy_one. rewrite mbind_get. destruct (nm_find key (pp_pending s)) as [e|]; [|left; reflexivity].
  rewrite mbind_lift. destruct (iblt_sub _ _ _) as [d|x|u|]; try (left; reflexivity). cbv zeta.
  destruct (negb _); [left; reflexivity|]. rewrite mbind_lift. destruct (bloom_contains _ _) as [x|y|u|]; try (left; reflexivity).
  destruct (_ || _); [|left; reflexivity]. rewrite mbind_lift.
  destruct (append_ibf _ _ key _) as [dn|y|u|] eqn:Ib; try (left; reflexivity).
  rewrite bind_drop. apply append_ibf_ext in Ib as (c & ->).
  unfold pp_publish. destruct (publish _ _ _ _ _ _ _) as [q [l|y|u|]] eqn:P; try (left; reflexivity).
  cbn [outs fst snd]. destruct (published_name _ _ _ _ _ _ _ _ _ P) as [->|(d0 & r & -> & Hd)]; [left; reflexivity|].
  right. exists d0, ([c] ++ r). split; [reflexivity|]. rewrite Hd, <- app_assoc. reflexivity.
Qed.
(** [ks] without some of its elements *)
Inductive sublist {A} : list A -> list A -> Prop :=
| sl_nil : sublist [] []
| sl_skip x l m : sublist l m -> sublist l (x :: m)
| sl_take x l m : sublist l m -> sublist (x :: l) (x :: m).
Lemma sublist_nil {A} (l : list A) : sublist [] l.
Proof. induction l; constructor; auto. Qed.
Lemma sublist_In {A} (l m : list A) x : sublist l m -> In x l -> In x m.
Proof. induction 1; cbn [In]; tauto. Qed.
Lemma sublist_sorted {A} (R : A -> A -> Prop) l m : sublist l m -> StronglySorted R m -> StronglySorted R l.
Proof.
  induction 1 as [|x l m H IH|x l m H IH]; intros S; auto; inversion S as [|? ? S' F]; subst; auto.
  constructor; auto. apply Forall_forall. intros y Hy. rewrite Forall_forall in F. apply F. eapply sublist_In; eauto.
Qed.
Lemma one_under_cons k ks o os : one_under k o -> (exists l, sublist l ks /\ answers_in_turn l os) ->
  exists l, sublist l (k :: ks) /\ answers_in_turn l (o ++ os).
Proof.
  intros [->|(d & r & -> & Hd)] (l & Hl & Ha); [exists l; split; [constructor; exact Hl|exact Ha]|].
  exists (k :: l). split; [constructor; exact Hl|]. constructor; [eauto|exact Ha].
Qed.
Lemma satisfy_in_turn K p keys : forall s, exists l, sublist l keys /\ answers_in_turn l (outs (satisfy K p keys s)).
Proof.
  induction keys as [|k keys IH]; intros s; cbn [satisfy]; [exists []; split; constructor|].
  pose proof (satisfy_one_under K p k s) as U.
  destruct (mbind_inv (satisfy_one K p k) (fun _ => satisfy K p keys) s) as [(s1 & o1 & a & E & ->)|(s1 & o1 & r & E & _ & _ & Eq & _)].
  - rewrite E in U. cbn [outs fst snd] in U |- *. apply one_under_cons; auto.
  - rewrite Eq. rewrite E in U. cbn [outs fst snd] in U |- *. rewrite <- (app_nil_r o1). apply one_under_cons; [exact U|].
    exists []. split; [apply sublist_nil|constructor].
Qed.

(** ** The same for a full-sync node *)
Lemma data_of_app a b : data_of (a ++ b) = data_of a ++ data_of b.
Proof. induction a as [|[] a IH]; cbn [app data_of]; rewrite ?IH; auto. Qed.
Lemma data_of_FoData l : data_of (map FoData l) = l.
Proof. induction l; cbn [map data_of]; congruence. Qed.
(** no packet at all *)
Definition dataless {A} (m : FM A) : Prop := forall s, data_of (outs (m s)) = [].
Lemma dl_bind {A B} (m : FM A) (f : A -> FM B) : dataless m -> (forall a, dataless (f a)) -> dataless (mbind m f).
Proof.
  intros Hm Hf s. specialize (Hm s). unfold mbind, outs in *. destruct (m s) as [[s1 o1] [a|e|u|]]; cbn [fst snd] in *; auto.
  specialize (Hf a s1). unfold outs in Hf. destruct (f a s1) as [[s2 o2] r]. cbn [fst snd] in *. rewrite data_of_app, Hm, Hf. reflexivity.
Qed.
Lemma dl_ret {A} (a : A) : dataless (mret a). Proof. intros s. reflexivity. Qed.
Lemma dl_get : dataless mget. Proof. intros s. reflexivity. Qed.
Lemma dl_mod f : dataless (mmod f). Proof. intros s. reflexivity. Qed.
Lemma dl_lift {A} (r : outcome A) : dataless (mlift r). Proof. intros s. destruct r; reflexivity. Qed.
Lemma dl_draw K : dataless (draw K).
Proof. unfold draw. intros s. cbn. reflexivity. Qed.
Lemma dl_interest K : dataless (send_sync_interest K).
Proof.
  unfold send_sync_interest. apply dl_bind; [apply dl_get|intros s]. destruct (f_wait s); [apply dl_ret|].
  apply dl_bind; [apply dl_mod|intros _]. apply dl_bind; [apply dl_lift|intros n].
  destruct (_ && _); [apply dl_ret|]. apply dl_bind; [apply dl_draw|intros j]. apply dl_bind; [apply dl_mod|intros _].
  intros s1. reflexivity.
Qed.
Lemma dl_before {A B} (m : FM A) (f : A -> FM B) s P : dataless m -> P [] -> (forall a s1, P (data_of (outs (f a s1)))) ->
  P (data_of (outs (mbind m f s))).
Proof.
  intros Hm P0 Hf. specialize (Hm s). unfold mbind, outs in *. destruct (m s) as [[s1 o1] [a|e|u|]]; cbn [fst snd] in *; try (rewrite Hm; auto; fail).
  specialize (Hf a s1). destruct (f a s1) as [[s2 o2] r]. cbn [fst snd] in *. rewrite data_of_app, Hm. exact Hf.
Qed.
Lemma dl_after {A B} (m : FM A) (f : A -> FM B) s : (forall a, dataless (f a)) ->
  data_of (outs (mbind m f s)) = data_of (outs (m s)).
Proof.
  intros Hf. unfold mbind, outs. destruct (m s) as [[s1 o1] [a|e|u|]]; cbn [fst snd]; auto.
  specialize (Hf a s1). unfold outs in Hf. destruct (f a s1) as [[s2 o2] r]. cbn [fst snd] in *.
  rewrite data_of_app, Hf, app_nil_r. reflexivity.
Qed.
Lemma fsatisfy_one_under K u key s : one_under key (data_of (outs (fsatisfy_one K u key s))).
Proof.
  unfold fsatisfy_one. rewrite mbind_get. destruct (nm_find key (f_pending s)) as [e|]; [|left; reflexivity].
  rewrite mbind_lift. destruct (iblt_sub _ _ _) as [d|x|w|]; try (left; reflexivity).
  rewrite dl_after by (intros _; apply dl_mod). unfold send_sync_data. rewrite mbind_get. cbv zeta.
  apply dl_before; [|left; reflexivity|intros _ s1].
  { destruct (_ && _); [|apply dl_ret]. apply dl_bind; [apply dl_mod|intros _; apply dl_mod]. }
  apply dl_before; [apply dl_lift|left; reflexivity|intros buf s2].
  rewrite dl_after by (intros _; destruct (name_eqb _ _); [apply dl_interest|apply dl_ret]).
  unfold fp_publish. destruct (publish _ _ _ _ _ _ _) as [q [l|y|w|]] eqn:P; try (left; reflexivity).
  cbn [outs fst snd]. rewrite data_of_FoData. exact (published_name _ _ _ _ _ _ _ _ _ P).
Qed.
Lemma fsatisfy_in_turn K u keys : forall s, exists l, sublist l keys /\ answers_in_turn l (data_of (outs (fsatisfy K u keys s))).
Proof.
  induction keys as [|k keys IH]; intros s; cbn [fsatisfy]; [exists []; split; constructor|].
  pose proof (fsatisfy_one_under K u k s) as U.
  destruct (mbind_inv (fsatisfy_one K u k) (fun _ => fsatisfy K u keys) s) as [(s1 & o1 & a & E & ->)|(s1 & o1 & r & E & _ & _ & Eq & _)].
  - rewrite E in U. cbn [outs fst snd] in U |- *. rewrite data_of_app. apply one_under_cons; auto.
  - rewrite Eq. rewrite E in U. cbn [outs fst snd] in U |- *. rewrite <- (app_nil_r (data_of o1)). apply one_under_cons; [exact U|].
    exists []. split; [apply sublist_nil|constructor].
Qed.
