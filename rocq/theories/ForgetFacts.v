(** Removed user nodes. *)
From Coq Require Import List NArith ZArith Bool Arith Lia.
From Verif Require Import Base BaseFacts Mon MonFacts Iblt SpecIblt Tlv TlvFacts State NMap NMapFacts Codec Store StoreFacts SpecStore
  Producer SpecProducer ProducerFacts Partial SpecPartial PartialFacts PartialSteps Full FullTrace SpecFull FullFacts FullSafe FullSteps FullData FullRuns
  FullReplies FullAsk SpecFresh FreshFacts FullFresh FullLog ExchangeFacts GroupFacts SpecDeliver DeliverFacts
  Properties_Partial SpecForget.
Import ListNotations.
Local Open Scope N_scope.

Lemma reaches_cut K sys b : forall a s o, reaches K sys (a ++ b) s o ->
  exists sa oa ob, reaches K sys a sa oa /\ fp_run K sa b = Some (s, ob) /\ o = oa ++ ob.
Proof.
  intros a s o [W H]. apply Forall_app in W as [W1 W2]. apply start_inv in H as (s0 & o0 & o1 & E & R & ->).
  unfold fp_run in R. rewrite run_app in R. destruct (run (fp_step K) s0 a) as [[sa oa]|] eqn:Ra; [|discriminate].
  destruct (run (fp_step K) sa b) as [[sb ob]|] eqn:Rb; [|discriminate]. injection R as <- <-.
  exists sa, (o0 ++ oa), ob. split; [|split; [exact Rb|apply app_assoc]]. split; auto. unfold fp_start, fp_run. rewrite E, Ra. reflexivity.
Qed.
Lemma run_time_mono K evs : forall s s' o, fp_run K s evs = Some (s', o) -> f_now s <= f_now s'.
Proof.
  induction evs as [|e evs IH]; intros s s' o; unfold fp_run; cbn [run]; [intros [= <- <-]; lia|].
  pose proof (now_step K e s) as T. unfold st in T.
  destruct (fp_step K e s) as [[s1 o1] [u|x|u|]]; try discriminate; cbn [fst] in T;
    destruct (run (fp_step K) s1 evs) as [[s2 o2]|] eqn:R; try discriminate; intros [= <- <-]; apply IH in R; lia.
Qed.

(** ** When and from what the packets in the store were made *)
Definition event_op (e : fev) (c : cop) : Prop := In c (ev_ops e) \/ (exists p, c = CAdd p) \/ exists p v, c = CUpdate p v.
Lemma event_op_ops e : Forall (event_op e) (ev_ops e).
Proof. apply Forall_forall. intros c H. left. exact H. Qed.
(** record [r] was made in one of the events [evs] *)
Definition made_in (K : fcfg) (sys : Z) (evs : list fev) (r : prec) : Prop :=
  exists pre e post s o, evs = pre ++ e :: post /\ reaches K sys pre s o /\ pr_time r = f_now s /\
    made_since K (event_op e) (f_core s) (outs (fp_step K e s)) r.
Lemma made_in_app K sys evs evs' r : made_in K sys evs r -> made_in K sys (evs ++ evs') r.
Proof.
  intros (pre & e & post & s & o & -> & X). exists pre, e, (post ++ evs'), s, o. rewrite <- app_assoc. auto.
Qed.
Lemma event_made K e s L : uri_ok K -> fp_ok K s -> store_log K L (f_pub s) ->
  exists L2, store_log K (L ++ L2) (f_pub (st (fp_step K e s))) /\
    Forall (fun r => pr_time r = f_now s /\ made_since K (event_op e) (f_core s) (outs (fp_step K e s)) r) L2 /\
    (due_later (f_now s) (f_pub s) -> forall d, In d (data_of (outs (fp_step K e s))) -> d_type d = AppNack \/
       exists dl, inlog K (L ++ L2) dl d /\ f_now s <= dl).
Proof.
  intros Uk Hs HL.
  assert ((forall dt, e <> FeTick dt) \/ exists dt, e = FeTick dt) as [He|[dt ->]]
    by (destruct e; try (left; discriminate); eauto).
  - pose proof (log_step K (event_op e) Uk (fun p => or_intror (or_introl (ex_intro _ p eq_refl)))
      (fun p v _ => or_intror (or_intror (ex_intro _ p (ex_intro _ v eq_refl)))) e s He (event_op_ops e)) as [A B C D].
    destruct (D Hs L HL) as (L2 & S2 & M2 & X2). exists L2. split; auto.
  - exists []. rewrite app_nil_r. cbn. split; auto. split; [constructor|]. intros _ d [].
Qed.
Lemma reaches_made K sys evs : uri_ok K -> forall s o, reaches K sys evs s o ->
  exists L, store_log K L (f_pub s) /\ Forall (made_in K sys evs) L.
Proof.
  intros Uk. induction evs as [|e evs IH] using rev_ind; intros s o R.
  - apply reaches_nil in R as (n & _ & -> & _). exists []. split; [|constructor]. split; [reflexivity|]. intros d [].
  - pose proof R as R'. apply reaches_inv in R' as (s1 & o1 & R1 & _ & -> & -> & _).
    destruct (IH _ _ R1) as (L & SL & FL). destruct (event_made K e s1 L Uk (reaches_ok _ _ _ _ _ R1) SL) as (L2 & S2 & M2 & _).
    exists (L ++ L2). split; auto. apply Forall_app. split.
    + eapply Forall_impl; [|exact FL]. intros r. apply made_in_app.
    + eapply Forall_impl; [|exact M2]. intros r [T M]. exists evs, e, [], s1, o1. auto.
Qed.
(** ** The names of such a packet *)
Lemma computed_names K ok k n names f : core_ok (fc_n K) k -> computed K ok k n names f ->
  forall nm, In nm names -> (exists p v, get_seq p k = Some v /\ v <> 0 /\ nm = append_number p v) \/ announced ok nm.
Proof.
  intros Ck C nm H. destruct C as [t rcvd d Hn Hd Hc|t rcvd d Hn Hd Hc|t rcvd d u Hn Hd Hu].
  - left. apply (offer_In (fc_n K)) in H as (p & v & A & B & -> & _); eauto.
  - left. apply live_names_In in H as (p & v & A & B & ->); [|apply Ck]. exists p, v. auto.
  - apply satisfy_In in H as [->|H]; [right; exact Hu|]. left. apply lookup_In in H as (h & _ & H).
    apply (rep_lookup _ _ _ _ _ _ (ok_rep _ _ Ck)) in H as [(p & v & A & B & ->) _]. exists p, v. auto.
Qed.

Lemma made_ok K sys pre e s o o1 o2 k : reaches K sys pre s o -> fev_wf e -> no_collision K (o ++ outs (fp_step K e s)) ->
  outs (fp_step K e s) = o1 ++ o2 -> crun (f_core s) (ops_of o1) = Ok k -> core_ok (fc_n K) k.
Proof.
  intros R We Nc E C. apply reaches_core in R as [W R]. pose proof (step_ops K s e We) as Ws. rewrite E in *.
  unfold no_collision in Nc. rewrite !ops_of_app, app_assoc in Nc. rewrite ops_of_app in Ws. apply Forall_app in Ws as [Ws _].
  apply collision_free_app in Nc. apply (crun_ok (fc_n K) (ops_of o ++ ops_of o1)); auto.
  - apply Forall_app. auto.
  - rewrite crun_app, R. exact C.
Qed.
Lemma in_full_run K sys evs pre e post s o s1 o1 : reaches K sys evs s o -> evs = pre ++ e :: post -> reaches K sys pre s1 o1 ->
  fev_wf e /\ exists o2, o = o1 ++ outs (fp_step K e s1) ++ o2.
Proof.
  intros R -> R1. pose proof R as [W _]. apply Forall_app in W as [_ W]. inversion W; subst. split; auto.
  change (e :: post) with ([e] ++ post) in R. rewrite app_assoc in R. apply reaches_cut in R as (sa & oa & ob & Ra & _ & ->).
  apply reaches_inv in Ra as (sc & oc & Rc & _ & _ & -> & _). destruct R1 as [_ R1], Rc as [_ Rc]. rewrite R1 in Rc.
  injection Rc as <- <-. exists ob. rewrite app_assoc. reflexivity.
Qed.
Theorem answers_list K sys evs e s o s' out d : uri_ok K -> reaches K sys evs s o -> reaches K sys (evs ++ [e]) s' (o ++ out) ->
  no_collision K (o ++ out) -> erased_in_time (f_now s) (f_pub s) -> In (FoData d) out -> d_type d = Blob ->
  exists pre e1 post s1 o1 k names buf,
    evs ++ [e] = pre ++ e1 :: post /\ reaches K sys pre s1 o1 /\ f_now s <= f_now s1 + d_fresh d /\
    held_during (f_core s1) (outs (fp_step K e1 s1)) k /\
    compress (fc_codec K) (fc_cscheme K) (encode_names names) = Ok buf /\ segment_of buf d /\
    forall nm, In nm names -> named_then e1 k nm.
Proof.
  intros Uk R R' Nc T Hd Hb. pose proof R' as X. apply reaches_inv in X as (sb & ob & Rb & We & -> & Eo & _).
  assert (sb = s /\ ob = o) as [-> ->] by (destruct R as [_ R], Rb as [_ Rb]; rewrite R in Rb; injection Rb; auto).
  apply app_inv_head in Eo. subst out.
  destruct (reaches_made K sys evs Uk s o R) as (L & SL & FL).
  destruct (event_made K e s L Uk (reaches_ok _ _ _ _ _ R) SL) as (L2 & _ & M2 & D2).
  assert (due_later (f_now s) (f_pub s)) as Du. { intros dl n Hn. apply T in Hn. lia. }
  destruct (D2 Du d) as [A|(dl & (i & r & j & Hr & Hj & -> & ->) & Le)]; [apply data_of_In; auto|congruence|].
  assert (made_in K sys (evs ++ [e]) r) as (pre & e1 & post & s1 & o1 & Ev & R1 & Tr & (oa & oc & k & names & Es & Ck & Co & Cm)).
  { apply nth_error_In in Hr. apply in_app_or in Hr as [Hr|Hr].
    - apply made_in_app. rewrite Forall_forall in FL. auto.
    - rewrite Forall_forall in M2. destruct (M2 _ Hr). exists evs, e, [], s, o. auto. }
  exists pre, e1, post, s1, o1, k, names, (pr_buf r). split; auto. split; auto.
  destruct (in_full_run _ _ _ _ _ _ _ _ _ _ R' Ev R1) as (We1 & o2 & Eo2).
  assert (core_ok (fc_n K) k) as Ok_.
  { apply (made_ok K sys pre e1 s1 o1 oa oc k); auto. rewrite Eo2, app_assoc in Nc. unfold no_collision in *.
    rewrite ops_of_app in Nc. apply collision_free_app in Nc. exact Nc. }
  specialize (Cm Ok_). split; [|split; [|split; [exact Co|split]]].
  - unfold piece, seg_data. cbn [d_fresh]. lia.
  - exists oa, oc. auto.
  - apply (segment_in (fc_env K) (pr_sg r) (append_version (pr_name r) (en_version (fc_env K) i)) _ (pr_fresh r)).
    apply segment_In. exists j. auto.
  - intros nm Hnm. destruct (computed_names _ _ _ _ _ _ Ok_ Cm nm Hnm) as [(p & v & A & B & ->)|(p & q & c & -> & [A|[(x & A)|(x & y & A)]])];
      [left; eauto|right; eauto 10|discriminate..].
Qed.

(** ** After the removal *)
Definition harmless (p : name) (c : cop) : Prop :=
  match c with CUpdate q _ | CPublish q _ => q <> p | _ => True end.
Lemma harmless_seq p ops : forall c, Forall (harmless p) ops -> seq0 c = 0 -> seq0 (fold_left (seq_step p) ops c) = 0.
Proof.
  induction ops as [|o ops IH]; intros c F H; cbn [fold_left]; auto. inversion F; subst. apply IH; auto.
  destruct o as [q|q|q v|q [v|]]; cbn [seq_step harmless] in *; destruct (name_eqb p q) eqn:E; auto;
    try (apply name_eqb_eq in E; congruence); destruct c; auto.
Qed.
Lemma event_ops K e s : Forall (event_op e) (ops_of (outs (fp_step K e s))).
Proof.
  apply (tr_step K (event_op e) (sop_rel (event_op e)) (sop_closed K (event_op e))).
  all: try (intros; right; eauto; fail).
  all: try (split; intros; constructor; fail).
  all: try (intros; constructor; fail).
  apply event_op_ops.
Qed.
Lemma silent_harmless K p e s : silent_about K p e -> Forall (harmless p) (ops_of (outs (fp_step K e s))).
Proof.
  intros [A B]. apply Forall_forall. intros c Hc.
  pose proof (event_ops K e s) as E. rewrite Forall_forall in E. specialize (E _ Hc).
  destruct c as [q|q|q v|q v]; cbn [harmless]; auto; intros ->.
  - apply step_updates in Hc as (i & buf & script & n & names & x & -> & _ & Hn & Hx & _). exact (B _ _ _ _ _ eq_refl Hn Hx).
  - destruct E as [E|[(x & E)|(x & y & E)]]; [exact (A _ E)|discriminate..].
Qed.
Lemma silent_run K sys p pre : forall mid sa oa s o, reaches K sys pre sa oa -> seq0 (get_seq p (f_core sa)) = 0 ->
  Forall (silent_about K p) mid -> reaches K sys (pre ++ mid) s o -> seq0 (get_seq p (f_core s)) = 0.
Proof.
  intros mid. induction mid as [|e mid IH] using rev_ind; intros sa oa s o Ra Z F R.
  - rewrite app_nil_r in R. destruct R as [_ R], Ra as [_ Ra]. rewrite Ra in R. injection R as <- _. exact Z.
  - apply Forall_app in F as [F Fe]. inversion Fe; subst. rewrite app_assoc in R.
    apply reaches_inv in R as (s1 & o1 & R1 & We & -> & _ & _). specialize (IH _ _ _ _ Ra Z F R1).
    pose proof (step_core K s1 e) as C. unfold core_rel in C.
    rewrite (get_seq_run p _ _ _ (reaches_pfx _ _ _ _ _ R1) (step_ops K s1 e We) C). apply harmless_seq; auto. apply silent_harmless; auto.
Qed.
Lemma append_number_snoc p v : exists x, append_number p v = p ++ [x].
Proof. unfold append_number. eauto. Qed.
Lemma silent_names K sys p pre e s1 o1 k names : reaches K sys pre s1 o1 -> fev_wf e -> seq0 (get_seq p (f_core s1)) = 0 -> silent_about K p e ->
  held_during (f_core s1) (outs (fp_step K e s1)) k -> (forall nm, In nm names -> named_then e k nm) -> without_prefix p names.
Proof.
  intros R We Z S (oa & ob & Eo & Ck) H x Hx. pose proof (silent_harmless K p e s1 S) as F. pose proof (step_ops K s1 e We) as W.
  rewrite Eo, ops_of_app in F, W. apply Forall_app in F as [F _]. apply Forall_app in W as [W _].
  pose proof (get_seq_run p _ _ _ (reaches_pfx _ _ _ _ _ R) W Ck) as G.
  pose proof (harmless_seq p (ops_of oa) (get_seq p (f_core s1)) F Z) as Z'. rewrite <- G in Z'.
  destruct (H _ Hx) as [(q & v & A & B & C)|(q & q' & c & A & B)].
  - destruct (append_number_snoc q v) as [y Ey]. rewrite Ey in A. apply app_inj_tail in A as [-> ->]. rewrite C in Z'. cbn in Z'. congruence.
  - destruct (append_number_snoc q (publish_seq c q')) as [y Ey]. rewrite Ey in B. apply app_inj_tail in B as [-> ->]. destruct S as [S _]. exact (S _ A).
Qed.

Lemma removed_full K sys evs p s o : reaches K sys (evs ++ [FeApi (ARemove p)]) s o -> get_seq p (f_core s) = None.
Proof.
  intros R. pose proof R as R'. apply reaches_inv in R' as (s1 & o1 & R1 & We & -> & _ & Hr).
  pose proof (step_core K s1 (FeApi (ARemove p))) as C. unfold core_rel in C.
  rewrite (get_seq_run p _ _ _ (reaches_pfx _ _ _ _ _ R1) (step_ops K s1 _ We) C).
  cbn [fp_step api_call] in *. unfold fp_op in *. rewrite mbind_get, mbind_lift in *. cbn [cstep] in *.
  pose proof (core_remove_no_throw p (f_core s1)) as Nt. destruct (core_remove p (f_core s1)) as [k|x|u|].
  - rewrite mbind_mod. unfold memit, outs. cbn [fst snd ops_of fold_left seq_step]. rewrite name_eqb_refl. reflexivity.
  - destruct (Nt x eq_refl).
  - destruct Hr as [Hr|[x Hr]]; discriminate.
  - destruct Hr as [Hr|[x Hr]]; discriminate.
Qed.

(** ** Partial producers *)
Definition now_rel (s s' : pp) : Prop := pp_now s' = pp_now s.
Lemma nk_bind {A B} (m : PM A) (f : A -> PM B) : keeps now_rel m -> (forall a, keeps now_rel (f a)) -> keeps now_rel (mbind m f).
Proof. apply keeps_bind. unfold now_rel. congruence. Qed.
Lemma nk_get {B} (f : pp -> PM B) : (forall a, keeps now_rel (f a)) -> keeps now_rel (mbind mget f).
Proof. intros H. apply nk_bind; auto. intros s. reflexivity. Qed.
Lemma nk_lift {A B} (r : outcome A) (f : A -> PM B) : (forall a, keeps now_rel (f a)) -> keeps now_rel (mbind (mlift r) f).
Proof. intros H. apply nk_bind; auto. intros s. reflexivity. Qed.
Lemma nk_publish K i dn buf f : keeps now_rel (pp_publish K i dn buf f).
Proof. intros s. unfold st. rewrite pp_publish_eq. destruct (publish _ _ _ _ _ _ _) as [b r]. reflexivity. Qed.
Ltac nk := repeat (first [apply nk_get; intros ?|apply nk_lift; intros ?|apply nk_publish|apply nk_bind; [|intros ?]|(intros ?; reflexivity)]).
Lemma nk_one K p key : keeps now_rel (satisfy_one K p key).
Proof.
  unfold satisfy_one. apply nk_get; intros s. destruct (nm_find _ _); nk. destruct (negb _); nk. destruct (_ || _); nk.
Qed.
Lemma nk_satisfy K p keys : keeps now_rel (satisfy K p keys).
Proof. induction keys as [|k keys IH]; cbn [satisfy]; [nk|]. apply nk_bind; [apply nk_one|intros ?; exact IH]. Qed.
Lemma nk_dispatch K n l : keeps now_rel (dispatch K n l).
Proof.
  unfold dispatch. destruct (is_prefix _ n).
  - unfold on_hello_interest. nk. destruct (reply_from_store _ _); nk. destruct (a0 : bool); nk.
  - destruct (is_prefix _ n); nk. unfold on_sync_interest. nk. destruct (reply_from_store _ _); nk.
    destruct (sync_request _ _); nk. destruct a0 as [[bf t]|]; nk. destruct (negb _); [unfold pp_send_nack; nk|nk].
    destruct (_ || _); nk.
Qed.
Lemma pp_step_time K e s : pp_now s <= pp_now (st (pp_step K e s)).
Proof.
  assert (keeps now_rel (pp_step K e) -> pp_now s <= pp_now (st (pp_step K e s))) as H.
  { intros H. specialize (H s). unfold now_rel in H. lia. }
  destruct e as [p|p|p q|n l|dt|k|i]; cbn [pp_step] in *.
  - apply H. nk.
  - apply H. nk.
  - apply H. unfold pp_publish_name. nk. destruct (snd _); nk. apply nk_satisfy.
  - apply H, nk_dispatch.
  - cbn. lia.
  - apply H. intros s1. cbn. unfold now_rel, expire. destruct (nm_find _ _) as [x|]; auto. destruct (pe_expiry x) as [[dl n]|]; auto.
    destruct (dl <=? _); reflexivity.
  - apply H. nk.
Qed.
Lemma pp_run_time K evs : forall s s' o, pp_run K s evs = Some (s', o) -> pp_now s <= pp_now s'.
Proof.
  induction evs as [|e evs IH]; intros s s' o; unfold pp_run; cbn [run]; [intros [= <- <-]; lia|].
  pose proof (pp_step_time K e s) as T. unfold st in T.
  destruct (pp_step K e s) as [[s1 o1] [u|x|u|]]; try discriminate; cbn [fst] in T;
    destruct (run (pp_step K) s1 evs) as [[s2 o2]|] eqn:R; try discriminate; intros [= <- <-]; apply IH in R; lia.
Qed.
Lemma pp_run_cut K a b s s' o : pp_run K s (a ++ b) = Some (s', o) ->
  exists sa oa ob, pp_run K s a = Some (sa, oa) /\ pp_run K sa b = Some (s', ob) /\ o = oa ++ ob.
Proof.
  unfold pp_run. rewrite run_app. destruct (run (pp_step K) s a) as [[sa oa]|]; [|discriminate].
  destruct (run (pp_step K) sa b) as [[sb ob]|] eqn:R; [|discriminate]. intros [= <- <-]. eauto 8.
Qed.
Lemma unadded_seq p ops : (forall q, In (CAdd q) ops -> q <> p) -> (forall q v, ~ In (CUpdate q v) ops) ->
  fold_left (seq_step p) ops None = None.
Proof.
  induction ops as [|o ops IH]; intros A B; cbn [fold_left]; auto.
  replace (seq_step p None o) with (@None N); [apply IH; intros; [apply A|intros X; eapply B]; right; eauto|].
  destruct o as [q|q|q v|q [v|]]; cbn [seq_step]; destruct (name_eqb p q) eqn:E; auto.
  - apply name_eqb_eq in E. exfalso. apply (A q); [left; reflexivity|congruence].
Qed.
Lemma history_no_update evs q v : ~ In (CUpdate q v) (history evs).
Proof.
  unfold history. intros H. apply in_flat_map in H as (e & _ & H). destruct e; cbn [core_op] in H; try contradiction;
    destruct H as [H|[]]; discriminate.
Qed.
Lemma history_add evs q : In (CAdd q) (history evs) -> In (PAdd q) evs.
Proof.
  unfold history. intros H. apply in_flat_map in H as (e & He & H). destruct e; cbn [core_op] in H; try contradiction;
    destruct H as [H|[]]; try discriminate. injection H as ->. exact He.
Qed.
Lemma removed_stays K p evs mid s o : Forall pev_wf (evs ++ PRemove p :: mid) -> ~ In (PAdd p) mid ->
  pp_run K (pp_new K) (evs ++ PRemove p :: mid) = Some (s, o) -> get_seq p (pp_core s) = None.
Proof.
  intros W Ha R. apply pp_run_core in R. change (pp_core (pp_new K)) with (core_new (pc_n K)) in R.
  rewrite (get_seq_run p _ _ _ (core_new_pfx _)) with (2 := R) by (apply history_wf; auto).
  rewrite history_app, fold_left_app. change (history (PRemove p :: mid)) with (CRemove p :: history mid). cbn [fold_left].
  replace (seq_step p _ (CRemove p)) with (@None N) by (cbn [seq_step]; rewrite name_eqb_refl; reflexivity).
  apply unadded_seq; [|apply history_no_update]. intros q Hq ->. apply Ha, history_add. exact Hq.
Qed.
