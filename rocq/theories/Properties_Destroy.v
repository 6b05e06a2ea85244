(** Property theorems about destruction from a callback (C130). *)
From Coq Require Import List NArith ZArith Bool Arith Lia.
From Coq.Strings Require Import Byte.
From Verif Require Import Base Mon MonFacts Iblt BaseFacts IbltFacts SpecIblt
  Tlv State NMap TlvFacts NMapFacts Codec CodecFacts Bloom SpecBloom BloomFacts
  Store StoreFacts Producer SpecProducer ProducerFacts Properties_Producer Partial SpecPartial PartialFacts
  Full FullTrace SpecFull FullFacts FullSafe FullSteps FullData FullRuns Properties_Full
  Consumer SpecConsumer ConsumerFacts Properties_Consumer Life Properties_Life Destroy SpecDestroy.
Import ListNotations.
Local Open Scope N_scope.

(** ** The handlers, cut at their callbacks *)
Lemma then_on_eq {T O A} (s : life T) (m : M T O A) x o k : then_on s m x o k =
  match m x with
  | (x1, o1, Ok a) => k a x1 (o ++ o1)
  | (x1, o1, Throw e) => stays_on s x1 (o ++ o1) (Throw e)
  | (x1, o1, UB u) => stays_on s x1 (o ++ o1) (UB u)
  | (x1, o1, Hang) => stays_on s x1 (o ++ o1) Hang
  end.
Proof. unfold then_on. destruct (m x) as [[x1 o1] [a|e|u|]]; reflexivity. Qed.
Lemma bind_same {S O A B} (m : M S O A) (f g : A -> M S O B) s : (forall a x, f a x = g a x) -> mbind m f s = mbind m g s.
Proof. intros H. unfold mbind. destruct (m s) as [[s1 o1] [a|e|u|]]; [rewrite H|..]; reflexivity. Qed.
Lemma bind_eq {S O A B} (m : M S O A) (f : A -> M S O B) s : mbind m f s =
  match m s with
  | (s1, o1, Ok a) => (st (f a s1), o1 ++ outs (f a s1), res (f a s1))
  | (s1, o1, Throw e) => (s1, o1, Throw e)
  | (s1, o1, UB u) => (s1, o1, UB u)
  | (s1, o1, Hang) => (s1, o1, Hang)
  end.
Proof. unfold mbind, st, outs, res. destruct (m s) as [[s1 o1] [a|e|u|]]; try reflexivity. destruct (f a s1) as [[? ?] ?]. reflexivity. Qed.
Lemma on_hello_cut K buf sc1 sc2 x : on_hello_data K buf sc1 sc2 x =
  (mlet a <- hello_news buf;
   (memit [CoHello (snd a)] ;; calls K sc1) ;;
   match fst a with [] => mret tt | updates => memit [CoUpdate updates] ;; calls K sc2 end) x.
Proof.
  unfold on_hello_data, hello_news. rewrite mbind_assoc. apply bind_same. intros _ y. rewrite mbind_assoc. apply bind_same. intros names z.
  apply bind_same. intros a v. rewrite mbind_assoc. reflexivity.
Qed.
Lemma on_sync_cut K buf sc x : on_csync_data K buf sc x =
  (mlet updates <- sync_news buf;
   match updates with [] => send_sync K | _ => (memit [CoUpdate updates] ;; calls K sc) ;; send_sync K end) x.
Proof.
  unfold on_csync_data, sync_news. rewrite mbind_assoc. apply bind_same. intros _ y. rewrite mbind_assoc. apply bind_same. intros names z.
  apply bind_same. intros [|m l] v; [exact (mbind_ret tt (fun _ => send_sync K) v)|reflexivity].
Qed.

(** * Consumers *)
(** the two kinds of reply, run to the callback, and what the handler does as a whole *)
Lemma hello_run K i n buf sc1 sc2 s : cfetch i (c_live s) = Some (KHello, n) ->
  c_step K (CeContent i buf sc1 sc2) s = on_hello_data K buf sc1 sc2 (st (finish i s)).
Proof. intros E. cbn [c_step]. rewrite mbind_get, E. unfold finish. rewrite mbind_mod. reflexivity. Qed.
Lemma sync_run K i n buf sc1 sc2 s : cfetch i (c_live s) = Some (KSync, n) ->
  c_step K (CeContent i buf sc1 sc2) s =
  if is_nack (c_type s) then mmod (cset_type Blob) (st (finish i s)) else on_csync_data K buf sc2 (st (finish i s)).
Proof. intros E. cbn [c_step]. rewrite mbind_get, E. unfold finish. rewrite mbind_mod. destruct (is_nack _); reflexivity. Qed.
Lemma hello_news_silent buf x : outs (hello_news buf x) = [].
Proof.
  unfold hello_news. rewrite mbind_mod, mbind_lift. destruct (state_of_buffer buf) as [names|e|u|]; try reflexivity.
  generalize (@nil (name * N)) as av. generalize (cset_iblt (last_comp (c_hname x)) x). induction names as [|c names IH]; intros y av; cbn [take_hello]; [reflexivity|].
  rewrite mbind_lift. destruct (name_get_minus c 1); try reflexivity. rewrite mbind_lift. destruct (to_number _) as [v| | |]; try reflexivity.
  rewrite mbind_get. destruct (_ && _); [|apply IH]. rewrite mbind_mod. unfold mbind, outs. specialize (IH (cset_prefixes (nm_set (name_prefix_back c 1) v (c_prefixes y)) y) (nm_emplace (name_prefix_back c 1) v av)).
  unfold outs in IH. destruct (take_hello names _ _) as [[y1 o1] [l| | |]]; cbn in *; rewrite ?IH; reflexivity.
Qed.
Lemma sync_news_silent buf x : outs (sync_news buf x) = [].
Proof.
  unfold sync_news. rewrite mbind_mod, mbind_lift. destruct (state_of_buffer buf) as [names|e|u|]; try reflexivity.
  generalize (cset_iblt (last_comp (c_sname x)) x). induction names as [|c names IH]; intros y; cbn [take_sync]; [reflexivity|].
  rewrite mbind_lift. destruct (name_get_minus c 1); try reflexivity. rewrite mbind_lift. destruct (to_number _) as [v| | |]; try reflexivity.
  rewrite mbind_get. destruct (match nm_find _ _ with None => _ | Some _ => _ end); [|apply IH]. rewrite mbind_mod. unfold mbind, outs.
  specialize (IH (cset_prefixes (nm_set (name_prefix_back c 1) v (c_prefixes y)) y)).
  unfold outs in IH. destruct (take_sync names _) as [[y1 o1] [l| | |]]; cbn in *; rewrite ?IH; reflexivity.
Qed.
Lemma send_sync_tells_nothing K x u : ~ In (CoUpdate u) (outs (send_sync K x)).
Proof. rewrite send_sync_eq. destruct (c_iblt x); [intros []|]. destruct (append_bloom _ _); cbn; intros H; repeat destruct H as [H|H]; try discriminate; contradiction. Qed.
(** there is news exactly if the part before the callbacks finds updates *)
Lemma hello_news_iff K i n buf s : cfetch i (c_live s) = Some (KHello, n) ->
  (consumer_news K i buf s <-> exists x a l, res (hello_news buf (st (finish i s))) = Ok x /\ fst x = a :: l).
Proof.
  intros E. unfold consumer_news. rewrite (hello_run K i n buf [] [] s E), on_hello_cut. unfold mbind at 1, res.
  pose proof (hello_news_silent buf (st (finish i s))) as N. unfold outs in N.
  destruct (hello_news buf _) as [[x o] [y|e|u|]]; cbn [fst snd] in *; subst o;
    try (split; [intros [? []]|intros (? & ? & ? & ? & ?); discriminate]).
  unfold mbind, memit. cbn [calls]. unfold mret. cbn [app]. destruct y as [[|m l] av]; cbn.
  - split; [intros [u [H|[]]]; discriminate|]. intros (x0 & a & l & [= <-] & ?). discriminate.
  - split; [|intros _; eexists; right; left; reflexivity]. intros _. eexists _, m, l. split; reflexivity.
Qed.
Lemma sync_news_iff K i n buf s : cfetch i (c_live s) = Some (KSync, n) ->
  (consumer_news K i buf s <-> is_nack (c_type s) = false /\ exists a l, res (sync_news buf (st (finish i s))) = Ok (a :: l)).
Proof.
  intros E. unfold consumer_news. rewrite (sync_run K i n buf [] [] s E). destruct (is_nack (c_type s)).
  { split; [intros [u []]|]. intros [? _]; discriminate. }
  rewrite on_sync_cut. unfold mbind at 1, res.
  pose proof (sync_news_silent buf (st (finish i s))) as N. unfold outs in N.
  destruct (sync_news buf _) as [[x o] [y|e|u|]]; cbn [fst snd] in *; subst o;
    try (split; [intros [? []]|intros [_ (? & ? & ?)]; discriminate]).
  destruct y as [|m l].
  - pose proof (send_sync_tells_nothing K x) as T. unfold outs in *. destruct (send_sync K x) as [[x2 o2] r2]. cbn in *.
    split; [intros [u H]; destruct (T u H)|intros [_ (? & ? & ?)]; discriminate].
  - split; [intros _; split; [reflexivity|exists m, l; reflexivity]|]. intros _. exists (m :: l).
    unfold mbind, memit. cbn [calls]. unfold mret. cbn [app]. destruct (send_sync K x) as [[x2 o2] r2]. left. reflexivity.
Qed.

(** ** Where it is harmless *)
(** In the hello callback, if the reply brings nothing new for a subscribed prefix; and in the update
    callback of a hello reply.  The handler has then shown what it would have shown anyway.  Missing:
    the other cases, refuted below. *)
Theorem C130_hello_reply_partial : forall K evs s o i n buf sc1 sc2 s1 o1 w,
  creaches K evs s o -> cfetch i (c_live s) = Some (KHello, n) ->
  c_step K (CeContent i buf sc1 sc2) s = (s1, o1, Ok tt) ->
  (w = InHello /\ ~ consumer_news K i buf s) \/ (w = InUpdate /\ consumer_news K i buf s) ->
  destroyed s1 o1 (c_destroyed_in K w i buf sc1 sc2 (cl_new s)).
Proof.
  intros K evs s o i n buf sc1 sc2 s1 o1 w _ E St W. rewrite (hello_news_iff K i n buf s E) in W. rewrite (hello_run K i n buf sc1 sc2 s E), on_hello_cut in St.
  unfold c_destroyed_in. cbn [cl_new lf_obj]. rewrite E. unfold hello_end. rewrite then_on_eq. unfold mbind at 1 in St. unfold res in W.
  destruct (hello_news buf (st (finish i s))) as [[x oa] [y|e|u|]]; try discriminate. cbn [snd app] in *.
  rewrite then_on_eq. unfold mbind at 1 in St.
  destruct ((memit [CoHello (snd y)];; calls K sc1) x) as [[x2 o2] [[]|e|u|]]; try discriminate. destruct (fst y) as [|m l] eqn:Ey.
  - destruct W as [[-> _]|[_ (? & ? & ? & [= <-] & ?)]]; [|congruence]. cbn in St. injection St as <- <-. rewrite app_nil_r. eexists _, _. reflexivity.
  - destruct W as [[_ W]|[-> _]]; [destruct W; eexists _, _, _; split; [reflexivity|exact Ey]|]. rewrite then_on_eq.
    destruct ((memit [CoUpdate (m :: l)];; calls K sc2) x2) as [[x3 o3] [[]|e|u|]]; try discriminate. injection St as <- <-.
    rewrite app_assoc. eexists _, _. reflexivity.
Qed.
Print Assumptions C130_hello_reply_partial.
(** if the application calls stop() last, nothing calls the destroyed consumer later, and nothing is sent for it *)
Theorem C130_stop_then_destroy_partial : forall K evs s o i n buf sc1 sc2 s1 o1 w r evs2,
  creaches K evs s o -> cfetch i (c_live s) = Some (KHello, n) ->
  (w = InHello /\ ~ consumer_news K i buf s /\ r = c_destroyed_in K w i buf (sc1 ++ [CStop]) sc2 (cl_new s) /\
     c_step K (CeContent i buf (sc1 ++ [CStop]) sc2) s = (s1, o1, Ok tt)) \/
  (w = InUpdate /\ consumer_news K i buf s /\ r = c_destroyed_in K w i buf sc1 (sc2 ++ [CStop]) (cl_new s) /\
     c_step K (CeContent i buf sc1 (sc2 ++ [CStop])) s = (s1, o1, Ok tt)) ->
  exists d s3, r = Runs d o1 (Ok tt) /\ lf_alive d = false /\ lrun (cl_step K) d evs2 = Ended s3 [].
Proof.
  intros K evs s o i n buf sc1 sc2 s1 o1 w r evs2 R E W.
  assert (destroyed s1 o1 r /\ c_live s1 = []) as [(a & f & ->) Lv].
  { assert (forall l x x1 y, linv x -> calls K (l ++ [CStop]) x = (x1, y, Ok tt) -> c_live x1 = []) as Q.
    { induction l as [|c l IH]; intros x x1 y Lx; cbn [app calls].
      - unfold mbind. pose proof (stop_quiet x Lx) as [H _]. change (call K CStop x) with (stop_all x). unfold st in H.
        destruct (stop_all x) as [[x2 y2] [[]|e|u|]]; try discriminate. cbn in *. intros [= <- _]. exact H.
      - unfold mbind. pose proof (linv_call K c x Lx) as Lc. unfold res, st in Lc. destruct (call K c x) as [[x2 y2] [[]|e|u|]]; try discriminate. cbn in Lc.
        specialize (IH x2). destruct (calls K (l ++ [CStop]) x2) as [[x3 y3] r3]. intros [= -> _ ->]. eapply IH; [apply Lc; exact I|reflexivity]. }
    destruct (creaches_inv _ _ _ _ R) as (b0 & _ & _ & L).
    assert (linv (st (finish i s))) as L0 by (apply linv_finish; exact L).
    assert (forall m : CM (list missing * nmap N), m = hello_news buf -> pres linv m) as Pn.
    { intros m ->. unfold hello_news. apply pres_bind; [apply pres_mod; intros z; apply linv_same; reflexivity|intros _].
      apply pres_bind; [apply pres_lift|intros names]. apply linv_take_hello. }
    destruct W as [(-> & Nn & -> & St)|(-> & Nn & -> & St)].
    - split; [eapply C130_hello_reply_partial; [exact R|exact E|exact St|left; auto]|]. rewrite (hello_news_iff K i n buf s E) in Nn.
      rewrite (hello_run K i n buf _ _ s E), on_hello_cut in St. unfold mbind at 1 in St. specialize (Pn _ eq_refl _ L0). unfold res, st in Nn, Pn.
      destruct (hello_news buf (fst (fst (finish i s)))) as [[x oa] [y|e|u|]] eqn:Hn; unfold st in St; rewrite Hn in St; try discriminate. cbn [fst snd] in *. specialize (Pn I).
      unfold mbind, memit in St. destruct (calls K (sc1 ++ [CStop]) x) as [[x2 o2] [[]|e|u|]] eqn:Hc; try discriminate.
      destruct (fst y) as [|m l] eqn:Ey; [|destruct Nn; eexists _, _, _; split; [reflexivity|exact Ey]]. cbn in St. injection St as <- _. exact (Q _ _ _ _ Pn Hc).
    - split; [eapply C130_hello_reply_partial; [exact R|exact E|exact St|right; auto]|]. rewrite (hello_news_iff K i n buf s E) in Nn.
      rewrite (hello_run K i n buf _ _ s E), on_hello_cut in St. unfold mbind at 1 in St. specialize (Pn _ eq_refl _ L0). unfold res, st in Nn, Pn.
      destruct Nn as (y & m & l & Hy & Ey).
      destruct (hello_news buf (fst (fst (finish i s)))) as [[x oa] ry] eqn:Hn; unfold st in St; rewrite Hn in St. cbn [fst snd] in *. subst ry. specialize (Pn I).
      rewrite Ey in St. pose proof (linv_calls K sc1 x Pn) as L1. unfold res, st in L1.
      unfold mbind, memit in St. destruct (calls K sc1 x) as [[x2 o2] [[]|e|u|]]; try discriminate. cbn in L1. specialize (L1 I).
      destruct (calls K (sc2 ++ [CStop]) x2) as [[x3 o3] [[]|e|u|]] eqn:Hc; try discriminate. injection St as <- _. exact (Q _ _ _ _ L1 Hc). }
  set (d := mkLife s1 false a f). exists d, d. split; [reflexivity|]. split; [reflexivity|].
  apply lrun_idle. intros e _. destruct e as [[]|[]|]; cbn [cl_step lf_alive d lf_obj]; rewrite ?Lv; reflexivity.
Qed.
Print Assumptions C130_stop_then_destroy_partial.
(** a callback that is not made destroys nothing: the handler runs as usual *)
Theorem C130_no_callback_no_effect : forall K s i k n buf sc1 sc2 w,
  cfetch i (c_live s) = Some (k, n) ->
  (k = KHello /\ w = InUpdate /\ ~ consumer_news K i buf s) \/ (k = KSync /\ (w = InHello \/ ~ consumer_news K i buf s)) ->
  c_destroyed_in K w i buf sc1 sc2 (cl_new s) = lives (c_step K) (CeContent i buf sc1 sc2) (cl_new s).
Proof.
  intros K s i k n buf sc1 sc2 w E W. unfold lives. cbn [cl_new lf_obj lf_alive lf_answer lf_filter].
  unfold c_destroyed_in. cbn [cl_new lf_obj]. rewrite E. destruct W as [(-> & -> & W)|(-> & W)].
  - rewrite (hello_news_iff K i n buf s E) in W. rewrite (hello_run K i n buf _ _ s E), on_hello_cut. unfold hello_end. rewrite then_on_eq, bind_eq. unfold res in W.
    destruct (hello_news buf (st (finish i s))) as [[x oa] [y|e|u|]]; try reflexivity. cbn [snd app] in *.
    rewrite then_on_eq. rewrite (bind_eq (memit [CoHello (snd y)];; calls K sc1)). destruct ((memit [CoHello (snd y)];; calls K sc1) x) as [[x2 o2] [[]|e|u|]]; try reflexivity.
    destruct (fst y) as [|m l] eqn:Ey; [|destruct W; eexists _, _, _; split; [reflexivity|exact Ey]]. cbn. rewrite app_nil_r. reflexivity.
  - rewrite (sync_news_iff K i n buf s E) in W. rewrite (sync_run K i n buf _ _ s E). destruct (is_nack (c_type s)); [reflexivity|].
    rewrite on_sync_cut. unfold sync_end. rewrite then_on_eq, bind_eq. unfold res in W.
    destruct (sync_news buf (st (finish i s))) as [[x oa] [[|m l]|e|u|]]; try reflexivity; cbn [snd app] in *.
    + rewrite then_on_eq. destruct (send_sync K x) as [[x2 o2] [[]|e|u|]]; reflexivity.
    + destruct W as [->|W]; [|destruct W; split; [reflexivity|eexists _, _; reflexivity]]. rewrite then_on_eq. rewrite (bind_eq (memit [CoUpdate (m :: l)];; calls K sc2)).
      destruct ((memit [CoUpdate (m :: l)];; calls K sc2) x) as [[x2 o2] [[]|e|u|]]; try reflexivity. rewrite then_on_eq.
      destruct (send_sync K x2) as [[x3 o3] [[]|e|u|]]; cbn; rewrite app_assoc; reflexivity.
Qed.
Print Assumptions C130_no_callback_no_effect.

(** ** Where it is not *)
(** in the hello callback, when the reply brings news: the update callback is called next *)
Theorem C130_hello_callback_refuted : forall K evs s o i n buf sc1 sc2 s1 o1,
  creaches K evs s o -> cfetch i (c_live s) = Some (KHello, n) ->
  c_step K (CeContent i buf sc1 sc2) s = (s1, o1, Ok tt) -> consumer_news K i buf s ->
  c_destroyed_in K InHello i buf sc1 sc2 (cl_new s) = Dangling.
Proof.
  intros K evs s o i n buf sc1 sc2 s1 o1 _ E St W. apply (hello_news_iff K i n buf s E) in W as (y & m & l & Hy & Ey).
  rewrite (hello_run K i n buf sc1 sc2 s E), on_hello_cut in St.
  unfold c_destroyed_in. cbn [cl_new lf_obj]. rewrite E. unfold hello_end. rewrite then_on_eq. unfold mbind at 1 in St. unfold res in Hy.
  destruct (hello_news buf (st (finish i s))) as [[x oa] ry]. cbn [snd] in Hy. subst ry. cbn [app] in *.
  rewrite then_on_eq. unfold mbind at 1 in St.
  destruct ((memit [CoHello (snd y)];; calls K sc1) x) as [[x2 o2] [[]|e|u|]]; try discriminate. rewrite Ey. reflexivity.
Qed.
Print Assumptions C130_hello_callback_refuted.
(** in the update callback of a sync reply, always: the next sync interest is sent afterwards *)
Theorem C130_update_callback_refuted : forall K evs s o i n buf sc1 sc2 s1 o1,
  creaches K evs s o -> cfetch i (c_live s) = Some (KSync, n) ->
  c_step K (CeContent i buf sc1 sc2) s = (s1, o1, Ok tt) -> consumer_news K i buf s ->
  c_destroyed_in K InUpdate i buf sc1 sc2 (cl_new s) = Dangling.
Proof.
  intros K evs s o i n buf sc1 sc2 s1 o1 _ E St W. apply (sync_news_iff K i n buf s E) in W as (Hn & m & l & Hy).
  rewrite (sync_run K i n buf sc1 sc2 s E), Hn, on_sync_cut in St.
  unfold c_destroyed_in. cbn [cl_new lf_obj]. rewrite E, Hn. unfold sync_end. rewrite then_on_eq. unfold mbind at 1 in St. unfold res in Hy.
  destruct (sync_news buf (st (finish i s))) as [[x oa] ry]. cbn [snd] in Hy. subst ry. cbn [app] in *.
  rewrite then_on_eq. unfold mbind at 1 in St.
  destruct ((memit [CoUpdate (m :: l)];; calls K sc2) x) as [[x2 o2] [[]|e|u|]]; try discriminate. reflexivity.
Qed.
Print Assumptions C130_update_callback_refuted.

(** * Full-sync nodes *)
Definition hush {A} (m : FM A) : Prop := forall s, Forall (fun x => forall u, x <> FoUpdate u) (outs (m s)).
Lemma hush_bind {A B} (m : FM A) (f : A -> FM B) : hush m -> (forall a, hush (f a)) -> hush (mbind m f).
Proof.
  intros Hm Hf s. specialize (Hm s). rewrite bind_eq. unfold outs in *. destruct (m s) as [[s1 o1] [a|e|u|]]; cbn [fst snd] in *; auto.
  apply Forall_app. split; [exact Hm|]. apply (Hf a).
Qed.
Lemma hush_none {A} (m : FM A) : (forall s, outs (m s) = []) -> hush m.
Proof. intros H s. rewrite H. constructor. Qed.
Lemma hush_get {B} (f : fp -> FM B) : (forall s, hush (f s)) -> hush (mbind mget f).
Proof. intros H s. rewrite mbind_get. apply H. Qed.
Lemma hush_op o : hush (fp_op o).
Proof.
  unfold fp_op. apply hush_get. intros s. apply hush_bind; [apply hush_none; reflexivity|intros k]. apply hush_bind; [apply hush_none; reflexivity|intros _].
  intros x. repeat constructor. discriminate.
Qed.
Lemma hush_take names : hush (take_updates names).
Proof.
  induction names as [|c names IH]; cbn [take_updates]; [apply hush_none; reflexivity|].
  apply hush_bind; [apply hush_none; reflexivity|intros last]. apply hush_bind; [apply hush_none; reflexivity|intros v]. apply hush_get. intros s.
  destruct (match get_seq _ _ with None => _ | Some _ => _ end); [|exact IH]. apply hush_bind.
  - unfold prefix_seq. apply hush_get. intros s1. destruct (get_seq _ _); [apply hush_none; reflexivity|].
    apply hush_bind; [apply hush_op|intros _; apply hush_none; reflexivity].
  - intros cur. apply hush_bind; [apply hush_op|intros _]. apply hush_bind; [exact IH|intros l; apply hush_none; reflexivity].
Qed.
Lemma hush_news K n buf : hush (full_news K n buf).
Proof.
  unfold full_news, delete_pending. apply hush_bind; [apply hush_none; reflexivity|intros _].
  destruct (obind _ _); try (apply hush_none; reflexivity). apply hush_bind; [apply hush_take|intros l; apply hush_none; reflexivity].
Qed.
Definition no_update_end (K : fcfg) : FM unit :=
  mmod (fset_wait true) ;; mlet j <- draw K; mmod (fun s => fset_sched (Some (f_now s + (fc_fresh K + j), KAfterWait)) s).
Definition update_end (K : fcfg) : FM unit :=
  mlet j <- draw K; mmod (fun s => fset_wait false (fset_sched (Some (f_now s + j, KSend)) s)) ;; process_waiting K.
Lemma node_cut K i n buf script s : fetch_of i (f_live s) = Some n ->
  fp_step K (FeContent i buf script) s =
  (mlet a <- full_news K n buf;
   match a with
   | None => mret tt
   | Some [] => no_update_end K
   | Some l => (memit [FoUpdate l] ;; api_calls K script) ;; update_end K
   end) (fset_live (without i (f_live s)) s).
Proof.
  intros E. cbn [fp_step]. rewrite mbind_get, E, mbind_mod. unfold on_sync_data, full_news. rewrite mbind_assoc. apply bind_same. intros _ x.
  destruct (obind _ _) as [names|e|u|]; [|rewrite mbind_ret; reflexivity|reflexivity|reflexivity].
  rewrite mbind_assoc. apply bind_same. intros [|m l] y; rewrite mbind_ret; [reflexivity|]. rewrite mbind_assoc. reflexivity.
Qed.
Lemma node_news_iff K i n buf s : fetch_of i (f_live s) = Some n ->
  (node_news K i buf s <-> exists m l, res (full_news K n buf (fset_live (without i (f_live s)) s)) = Ok (Some (m :: l))).
Proof.
  intros E. unfold node_news. rewrite (node_cut K i n buf [] s E), bind_eq. pose proof (hush_news K n buf (fset_live (without i (f_live s)) s)) as H.
  unfold res, outs in *. destruct (full_news K n buf _) as [[x o] r]. cbn [fst snd] in *. rewrite Forall_forall in H.
  destruct r as [[[|m l]|]|e|u|]; cbn [fst snd].
  - split; [|intros (? & ? & ?); discriminate]. intros [u Hu]. apply in_app_iff in Hu as [Hu|Hu]; [destruct (H _ Hu u eq_refl)|]. destruct Hu.
  - split; [eauto|]. intros _. exists (m :: l). apply in_app_iff. right. rewrite bind_eq. left. reflexivity.
  - split; [|intros (? & ? & ?); discriminate]. intros [u Hu]. apply in_app_iff in Hu as [Hu|[]]. destruct (H _ Hu u eq_refl).
  - split; [|intros (? & ? & ?); discriminate]. intros [u Hu]. destruct (H _ Hu u eq_refl).
  - split; [|intros (? & ? & ?); discriminate]. intros [v Hu]. destruct (H _ Hu v eq_refl).
  - split; [|intros (? & ? & ?); discriminate]. intros [u Hu]. destruct (H _ Hu u eq_refl).
Qed.
(** in the update callback, always: the node schedules its next sync interest afterwards *)
Theorem C130_node_callback_refuted : forall K sys evs s o i n buf script s1 o1,
  reaches K sys evs s o -> fetch_of i (f_live s) = Some n ->
  fp_step K (FeContent i buf script) s = (s1, o1, Ok tt) -> node_news K i buf s ->
  f_destroyed_in K i buf script (mkLife s true Accepted true) = Dangling.
Proof.
  intros K sys evs s o i n buf script s1 o1 _ E St W. apply (node_news_iff K i n buf s E) in W as (m & l & Hy).
  rewrite (node_cut K i n buf script s E), bind_eq in St. unfold f_destroyed_in. cbn [lf_obj]. rewrite E, then_on_eq. unfold res in Hy.
  destruct (full_news K n buf _) as [[x o'] r]. cbn [fst snd] in *. subst r. rewrite then_on_eq. 
  rewrite (bind_eq (memit [FoUpdate (m :: l)];; api_calls K script)) in St.
  destruct ((memit [FoUpdate (m :: l)];; api_calls K script) x) as [[x2 o2] [[]|e|u|]]; try discriminate; reflexivity.
Qed.
Print Assumptions C130_node_callback_refuted.
(** content without news makes no callback: the handler runs as usual *)
Theorem C130_node_no_callback_no_effect : forall K s i n buf script a f,
  fetch_of i (f_live s) = Some n -> ~ node_news K i buf s ->
  f_destroyed_in K i buf script (mkLife s true a f) = lives (fp_step K) (FeContent i buf script) (mkLife s true a f).
Proof.
  intros K s i n buf script a f E W. rewrite (node_news_iff K i n buf s E) in W. unfold lives. cbn [lf_obj lf_alive lf_answer lf_filter].
  rewrite (node_cut K i n buf script s E), bind_eq. unfold f_destroyed_in. cbn [lf_obj]. rewrite E, then_on_eq. unfold res in W.
  destruct (full_news K n buf _) as [[x o'] [[[|m l]|]|e|u|]]; cbn [fst snd] in *; try reflexivity.
  - destruct W. eauto.
  - rewrite app_nil_r. reflexivity.
Qed.
Print Assumptions C130_node_no_callback_no_effect.

(** hypotheses: two hello replies, without and with news, the second after two subscriptions; a sync
    reply with news; a node that receives news *)
Definition evs_d0 : list cev := [CeCall CSendHello; CeSegment 0 (seg hello_name Blob)].
Definition s_d0 : cs := Eval vm_compute in fst (after evs_d0).
Definition evs_d1 : list cev := [CeCall (CSub pa 1 false); CeCall CSendHello; CeSegment 0 (seg hello_name Blob)].
Definition s_d1 : cs := Eval vm_compute in fst (after evs_d1).
Example C130_example :
  ((exists o, creaches Kc evs_d0 s_d0 o) /\ (exists n, cfetch 0 (c_live s_d0) = Some (KHello, n)) /\ ~ consumer_news Kc 0 two_content s_d0 /\
   exists s1 o1, c_step Kc (CeContent 0 two_content [CSub pa 1 true; CStop] []) s_d0 = (s1, o1, Ok tt) /\ o1 <> []) /\
  ((exists o, creaches Kc evs_d1 s_d1 o) /\ (exists n, cfetch 0 (c_live s_d1) = Some (KHello, n)) /\ consumer_news Kc 0 two_content s_d1 /\
   exists s1 o1, c_step Kc (CeContent 0 two_content [] [CStop]) s_d1 = (s1, o1, Ok tt)) /\
  (creaches Kc evs_c2 s_c2 o_c2 /\ (exists n, cfetch 1 (c_live s_c2) = Some (KSync, n)) /\ 
   consumer_news Kc 1 (encode_names [append_number pb 8]) s_c2 /\
   exists s1 o1, c_step Kc (CeContent 1 (encode_names [append_number pb 8]) [] [CStop]) s_c2 = (s1, o1, Ok tt)) /\
  (exists s o, reaches Kf 0 [] s o /\ (exists n, fetch_of 0 (f_live s) = Some n) /\ node_news Kf 0 two_content s /\
   exists s1 o1, fp_step Kf (FeContent 0 two_content []) s = (s1, o1, Ok tt)).
Proof.
  split; [|split; [|split]].
  - split; [eexists; apply reach_c; vm_compute; reflexivity|]. split; [eexists; vm_compute; reflexivity|]. split.
    + intros [u H]. revert H. vm_compute. intros [H|[]]. discriminate.
    + eexists _, _. split; [vm_compute; reflexivity|discriminate].
  - split; [eexists; apply reach_c; vm_compute; reflexivity|]. split; [eexists; vm_compute; reflexivity|]. split.
    + eexists. vm_compute. right. left. reflexivity.
    + eexists _, _. vm_compute. reflexivity.
  - split; [exact reach_c2|]. split; [eexists; vm_compute; reflexivity|]. split.
    + eexists. vm_compute. left. reflexivity.
    + eexists _, _. vm_compute. reflexivity.
  - exists s_f0. eexists. split; [exact reach_f0|]. split; [eexists; reflexivity|].
    assert (exists s1 o1, fp_step Kf (FeContent 0 two_content []) s_f0 = (s1, o1, Ok tt) /\ In (FoUpdate [mkMissing pa 1 4 0; mkMissing pb 1 5 0]) o1) as (s1 & o1 & E & H1).
    { eexists _, _. split; [vm_compute; reflexivity|]. do 4 right. left. reflexivity. }
    split; [|eauto]. eexists. rewrite E. exact H1.
Qed.
