(** Which interests the data packets of a partial producer answer, and what becomes of pending ones. *)
From Coq Require Import List NArith ZArith Bool Arith Lia.
From Verif Require Import Base BaseFacts Mon MonFacts Iblt SpecIblt IbltFacts Tlv TlvFacts State NMap NMapFacts
  Codec CodecFacts Bloom Store StoreFacts Producer SpecProducer ProducerFacts Partial SpecPartial PartialFacts PartialSteps.
Import ListNotations.
Local Open Scope N_scope.

Lemma published_under E now iname n b f p p' l d : publish E now iname n b f p = (p', Ok l) -> In d l ->
  is_prefix n (full_name d) = true.
Proof.
  unfold publish. intros [= _ P] Hd. unfold put_segment in P.
  destruct (name_get_back iname 1) as [c|e|u|]; try discriminate. cbn [obind] in P.
  destruct (if is_segment c then to_segment c else Ok 0) as [k|e|u|]; try discriminate. cbn [obind] in P.
  destruct (k <? _); [|injection P as <-; destruct Hd].
  destruct (nth_error _ _) as [x|] eqn:Ex; injection P as <-; [|destruct Hd]. destruct Hd as [<-|[]].
  apply nth_error_In, segment_In in Ex as (i & _ & ->). unfold full_name. cbn [d_name seg_data]. unfold append_segment, append_version.
  rewrite <- !app_assoc. apply is_prefix_app.
Qed.
Lemma append_ibf_ext C s n t n' : append_ibf C s n t = Ok n' -> exists c, n' = n ++ [c].
Proof. intros H. apply append_ibf_carries in H as (c & _ & ->). eauto. Qed.
Lemma prefix_longer n m r : is_prefix (n ++ r) m = true -> is_prefix n m = true.
Proof. intros H. apply is_prefix_iff in H as (x & ->). rewrite <- app_assoc. apply is_prefix_app. Qed.
Lemma reply_matches n p d : reply_from_store n p = Some d -> is_prefix n (full_name d) = true.
Proof.
  unfold reply_from_store. intros H. apply store_find_Some in H. apply H.
Qed.

Section Answers.
Variables (K : pcfg) (Q : name -> Prop).
(** [Q n] : an interest was received for which data under [n] is a reply *)
Definition paI (s : pp) : Prop := forall k e, nm_find k (pp_pending s) = Some e -> Q k.
Definition paP (d : data) : Prop := exists n, Q n /\ is_prefix n (full_name d) = true.
Definition pans {A} (m : PM A) : Prop := hoare paI paP m.
Lemma pa_get {B} (f : pp -> PM B) : (forall s, pans (f s)) -> pans (mbind mget f).
Proof. intros Hf s H. rewrite mbind_get. apply Hf. exact H. Qed.
Lemma pa_get' {B} (f : pp -> PM B) : (forall s, paI s -> pans (f s)) -> pans (mbind mget f).
Proof. intros Hf s H. rewrite mbind_get. apply Hf; exact H. Qed.
Lemma pa_publish iname n dn b f : Q n -> is_prefix n dn = true -> pans (pp_publish K iname dn b f).
Proof.
  intros Hn Hp s Hs. unfold pp_publish. destruct (publish _ _ _ _ _ _ _) as [p [l|e|u|]] eqn:P; (split; [exact Hs|]); try constructor.
  cbn [outs fst snd]. apply Forall_forall. intros d Hd. exists n. split; [exact Hn|].
  pose proof (published_under _ _ _ _ _ _ _ _ _ _ P Hd) as X. apply is_prefix_iff in Hp as (r & ->). eapply prefix_longer; exact X.
Qed.
Lemma pa_mod f : (forall s, pp_pending (f s) = pp_pending s) -> pans (mmod f).
Proof. intros H. apply hoare_mod. intros s Hs k e. rewrite H. apply Hs. Qed.
Lemma pa_nack n : Q n -> pans (pp_send_nack K n).
Proof.
  intros Hn. unfold pp_send_nack. apply pa_get. intros s.
  destruct (append_ibf _ _ n _) as [dn|e|u|] eqn:E; try solve [intros s0 Hs0; rewrite mbind_lift; split; [exact Hs0|constructor]].
  - intros s0 Hs0. rewrite mbind_lift. revert s0 Hs0.
    apply hoare_bind; [apply pa_mod; reflexivity|intros _]. apply hoare_emit. constructor; [|constructor]. exists n. split; [exact Hn|].
    apply append_ibf_ext in E as (c & ->). unfold full_name, nack_data, append_segment. cbn [d_name]. rewrite <- !app_assoc. apply is_prefix_app.
Qed.
Lemma pa_satisfy p keys : pans (satisfy K p keys).
Proof.
  induction keys as [|k keys IH]; cbn [satisfy]; [apply hoare_ret|]. apply hoare_bind; [|intros _; exact IH].
  assert (pans (mmod (fun s => set_pending (nm_erase k (pp_pending s)) s))) as Dr.
  { apply hoare_mod. intros s Hs k0 e0 H. cbn [pp_pending set_pending] in H.
    assert (exists e', nm_find k0 (pp_pending s) = Some e') as [e' He'].
    { apply nm_In_keys. apply nm_find_In, nm_erase_In in H. apply (in_map fst) in H. exact H. }
    apply (Hs _ _ He'). }
  unfold satisfy_one. apply pa_get'. intros s Hs. destruct (nm_find k (pp_pending s)) as [e|] eqn:F; [|apply hoare_ret].
  pose proof (Hs _ _ F) as Hk.
  apply hoare_bind; [apply hoare_lift|intros d]. cbv zeta. destruct (negb _); [exact Dr|].
  apply hoare_bind; [apply hoare_lift|intros x]. destruct (_ || _); [|apply hoare_ret].
  destruct (append_ibf _ _ k _) as [dn|ex|u|] eqn:E; try solve [intros s0 Hs0; rewrite mbind_lift; split; [exact Hs0|constructor]].
  intros s0 Hs0. rewrite mbind_lift. revert s0 Hs0. apply hoare_bind; [|intros _; exact Dr].
  apply append_ibf_ext in E as (c & ->). apply (pa_publish k k); [exact Hk|apply is_prefix_app].
Qed.
Lemma pa_hello iname s : Q iname -> (reply_from_store iname (pp_pub s) = None -> Q (pc_sync K ++ [HELLO])) -> paI s ->
  paI (st (on_hello_interest K (pc_sync K ++ [HELLO]) iname s)) /\ Forall paP (outs (on_hello_interest K (pc_sync K ++ [HELLO]) iname s)).
Proof.
  intros Hi Hh Hs. unfold on_hello_interest. rewrite mbind_get. destruct (reply_from_store iname (pp_pub s)) as [d|] eqn:R.
  - split; [exact Hs|]. constructor; [|constructor]. exists iname. split; [exact Hi|]. eapply reply_matches; eauto.
  - specialize (Hh eq_refl). revert Hs. generalize (pp_core s) as k. intros k Hs.
    refine (hoare_bind paI paP (mlift (is_hello_name iname)) _ _ _ s Hs); [apply hoare_lift|intros [|]; [|apply hoare_ret]].
    destruct (append_ibf _ _ (pc_sync K ++ [HELLO]) _) as [dn|ex|u|] eqn:E; try solve [intros s0 Hs0; rewrite mbind_lift; split; [exact Hs0|constructor]].
    intros s0 Hs0. rewrite mbind_lift. revert s0 Hs0. apply append_ibf_ext in E as (c & ->).
    apply (pa_publish iname (pc_sync K ++ [HELLO])); [exact Hh|apply is_prefix_app].
Qed.
Lemma pa_sync iname l s : Q iname ->
  (reply_from_store iname (pp_pub s) = None -> forall rname, sync_request (pc_sync K ++ [SYNC]) iname = Some rname -> Q rname) -> paI s ->
  paI (st (on_sync_interest K (pc_sync K ++ [SYNC]) iname l s)) /\ Forall paP (outs (on_sync_interest K (pc_sync K ++ [SYNC]) iname l s)).
Proof.
  intros Hi Hr Hs. unfold on_sync_interest. rewrite mbind_get. destruct (reply_from_store iname (pp_pub s)) as [d|] eqn:R.
  - split; [exact Hs|]. constructor; [|constructor]. exists iname. split; [exact Hi|]. eapply reply_matches; eauto.
  - destruct (sync_request _ iname) as [rname|]; [|apply hoare_ret; exact Hs]. specialize (Hr eq_refl rname eq_refl).
    revert Hs. generalize (pp_core s) as k. intros k Hs.
    refine (hoare_bind paI paP (mlift (extract K rname)) _ _ _ s Hs); [apply hoare_lift|intros [[bf t]|]; [|apply hoare_ret]].
    apply hoare_bind; [apply hoare_lift|intros d]. destruct (negb _); [apply pa_nack; exact Hr|].
    apply hoare_bind; [apply hoare_lift|intros content]. destruct (_ || _).
    + destruct (append_ibf _ _ rname _) as [dn|ex|u|] eqn:E; try solve [intros s0 Hs0; rewrite mbind_lift; split; [exact Hs0|constructor]].
      intros s0 Hs0. rewrite mbind_lift. revert s0 Hs0. apply append_ibf_ext in E as (c & ->).
      apply (pa_publish iname rname); [exact Hr|apply is_prefix_app].
    + apply hoare_mod. intros s0 Hs0 k0 e H. cbn [pp_pending set_pending] in H. unfold add_pending in H.
      destruct (nm_find rname (pp_pending s0)); rewrite nm_find_set in H;
        (destruct (name_eqb k0 rname) eqn:X; [apply name_eqb_eq in X; subst k0; exact Hr|apply (Hs0 _ _ H)]).
Qed.
Lemma pa_step e s : (forall n l, e = PInterest n l -> Q n /\ (reply_from_store n (pp_pub s) = None ->
    (is_prefix (pc_sync K ++ [HELLO]) n = true -> Q (pc_sync K ++ [HELLO])) /\
    (is_prefix (pc_sync K ++ [SYNC]) n = true -> forall rname, sync_request (pc_sync K ++ [SYNC]) n = Some rname -> Q rname))) ->
  paI s -> paI (st (pp_step K e s)) /\ Forall paP (outs (pp_step K e s)).
Proof.
  intros H Hs. destruct e as [p|p|p q|n l|dt|key|i]; cbn [pp_step].
  - revert s H Hs. intros s _. revert s. apply pa_mod. reflexivity.
  - revert Hs. clear H. revert s. apply pa_get. intros s. apply hoare_bind; [apply hoare_lift|intros k; apply pa_mod; reflexivity].
  - revert Hs. clear H. revert s. unfold pp_publish_name. apply pa_get. intros s. apply hoare_bind; [apply hoare_lift|intros r].
    apply hoare_bind; [apply pa_mod; reflexivity|intros _]. destruct (snd r); [apply pa_satisfy|apply hoare_ret].
  - destruct (H n l eq_refl) as (H1 & H2). unfold dispatch. destruct (is_prefix (pc_sync K ++ [HELLO]) n).
    + apply pa_hello; [exact H1|intros R; exact (proj1 (H2 R) eq_refl)|exact Hs].
    + destruct (is_prefix (pc_sync K ++ [SYNC]) n); [|apply hoare_ret; exact Hs].
      apply pa_sync; [exact H1|intros R; exact (proj2 (H2 R) eq_refl)|exact Hs].
  - revert Hs. clear H. revert s. apply pa_mod. reflexivity.
  - revert Hs. clear H. revert s. apply hoare_mod. intros s Hs k e. unfold expire. destruct (nm_find key (pp_pending s)) as [x|] eqn:X; [|apply Hs].
    destruct (pe_expiry x) as [[dl n]|]; [|apply Hs]. destruct (dl <=? pp_now s); [|apply Hs]. cbn [pp_pending set_pending]. intros F.
    assert (exists e', nm_find k (nm_set key (mkPentry (pe_bf x) (pe_iblt x) None) (pp_pending s)) = Some e') as [e' He'].
    { apply nm_In_keys. apply nm_find_In, nm_erase_In in F. apply (in_map fst) in F. exact F. }
    rewrite nm_find_set in He'. destruct (name_eqb k key) eqn:Y; [apply name_eqb_eq in Y; subst k; apply (Hs _ _ X)|apply (Hs _ _ He')].
  - revert Hs. clear H. revert s. apply pa_mod. reflexivity.
Qed.
End Answers.

(** at most one packet for an interest *)
Lemma put_at_most_one i ds l : put_segment i ds = Ok l -> (length l <= 1)%nat.
Proof.
  unfold put_segment. destruct (name_get_back i 1) as [c|e|u|]; try discriminate. cbn [obind].
  destruct (if is_segment c then to_segment c else Ok 0) as [k|e|u|]; try discriminate. cbn [obind].
  destruct (k <? _); [destruct (nth_error _ _)|]; intros [= <-]; cbn [length]; lia.
Qed.
Lemma publish_at_most_one K i dn b f s : (length (outs (pp_publish K i dn b f s)) <= 1)%nat.
Proof.
  unfold pp_publish. destruct (publish _ _ _ _ _ _ _) as [p [l|e|u|]] eqn:P; cbn [outs fst snd length]; try lia.
  unfold publish in P. injection P as _ P. apply put_at_most_one in P. exact P.
Qed.
Lemma lift_at_most_one {A} r (f : A -> PM unit) s : (forall a, r = Ok a -> (length (outs (f a s)) <= 1)%nat) ->
  (length (outs (mbind (mlift r) f s)) <= 1)%nat.
Proof. intros H. rewrite mbind_lift. destruct r; cbn; auto. Qed.
Lemma interest_at_most_one K n l s : (length (outs (pp_step K (PInterest n l) s)) <= 1)%nat.
Proof.
  cbn [pp_step]. unfold dispatch. destruct (is_prefix (pc_sync K ++ [HELLO]) n); [|destruct (is_prefix (pc_sync K ++ [SYNC]) n); [|cbn; lia]].
  - unfold on_hello_interest. rewrite mbind_get. destruct (reply_from_store _ _); [cbn; lia|]. apply lift_at_most_one. intros [|] _; [|cbn; lia].
    apply lift_at_most_one. intros dn _. apply publish_at_most_one.
  - unfold on_sync_interest. rewrite mbind_get. destruct (reply_from_store _ _); [cbn; lia|]. destruct (sync_request _ _) as [rname|]; [|cbn; lia].
    apply lift_at_most_one. intros [[bf t]|] _; [|cbn; lia]. apply lift_at_most_one. intros d _. destruct (negb _).
    + unfold pp_send_nack. rewrite mbind_get. apply lift_at_most_one. intros dn _. cbn. lia.
    + apply lift_at_most_one. intros content _. destruct (_ || _); [|cbn; lia]. apply lift_at_most_one. intros dn _. apply publish_at_most_one.
Qed.

(** ** Runs *)
Lemma hello_loose K n : is_prefix (pc_sync K ++ [HELLO]) n = true -> n = pc_sync K ++ [HELLO] \/ loosely K n (pc_sync K ++ [HELLO]).
Proof.
  intros H. apply is_prefix_iff in H as (r & ->). rewrite <- app_assoc. destruct r as [|c r]; [left; reflexivity|].
  right. left. exists (c :: r). split; [discriminate|]. split; reflexivity.
Qed.
Lemma sync_loose K n rname : is_prefix (pc_sync K ++ [SYNC]) n = true -> sync_request (pc_sync K ++ [SYNC]) n = Some rname ->
  n = rname \/ loosely K n rname.
Proof.
  intros H E. apply (sync_request_iff K n rname H) in E as (c1 & c2 & c3 & c4 & tail & Er & -> & [L|L]).
  - destruct tail; [|discriminate]. left. apply app_nil_r.
  - destruct tail as [|v [|g [|]]]; try discriminate. right. right. exists c1, c2, c3, c4, v, g. auto.
Qed.
(** what came in: the interest itself, or its base if it was loose and not answered from memory *)
Definition came (K : pcfg) (evs : list pev) (n : name) : Prop :=
  (exists l, In (PInterest n l) evs) \/
  exists m l pre post s1 o1, evs = pre ++ PInterest m l :: post /\ pp_run K (pp_new K) pre = Some (s1, o1) /\
    reply_from_store m (pp_pub s1) = None /\ loosely K m n.
Lemma came_more K evs e n : came K evs n -> came K (evs ++ [e]) n.
Proof.
  intros [(l & H)|(m & l & pre & post & s1 & o1 & -> & H)]; [left; exists l; apply in_or_app; auto|].
  right. exists m, l, pre, (post ++ [e]), s1, o1. rewrite <- app_assoc. auto.
Qed.
Lemma paI_mono (Q Q' : name -> Prop) s : (forall n, Q n -> Q' n) -> paI Q s -> paI Q' s.
Proof. intros H Hs k e F. apply H. eapply Hs; eauto. Qed.
Lemma paP_mono (Q Q' : name -> Prop) d : (forall n, Q n -> Q' n) -> paP Q d -> paP Q' d.
Proof. intros H (n & A & B). exists n. auto. Qed.
Lemma run_came K evs : forall s o, pp_run K (pp_new K) evs = Some (s, o) -> paI (came K evs) s /\ Forall (paP (came K evs)) o.
Proof.
  induction evs as [|e evs IH] using rev_ind; intros s o R.
  - injection R as <- <-. split; [intros k x F; discriminate F|constructor].
  - pose proof (run_snoc _ _ _ _ _ _ R) as (s1 & o1 & o2 & R1 & Es & Eo & -> & _). destruct (IH _ _ R1) as [A B].
    assert (forall n, came K evs n -> came K (evs ++ [e]) n) as Mo by (intros n; apply came_more).
    destruct (pa_step K (came K (evs ++ [e])) e s1) as [C D].
    + intros n l ->. split; [left; exists l; apply in_or_app; right; left; reflexivity|]. intros Hr. split.
      * intros H. destruct (hello_loose K n H) as [->|H']; [left; exists l; apply in_or_app; right; left; reflexivity|].
        right. exists n, l, evs, [], s1, o1. auto.
      * intros H rname E. destruct (sync_loose K n rname H E) as [->|H']; [left; exists l; apply in_or_app; right; left; reflexivity|].
        right. exists n, l, evs, [], s1, o1. auto.
    + eapply paI_mono; [exact Mo|exact A].
    + rewrite Es in C. rewrite Eo in D. split; [exact C|]. apply Forall_app. split; [|exact D].
      eapply Forall_impl; [|exact B]. intros d. apply paP_mono. exact Mo.
Qed.
(** one interest *)
Lemma interest_came K n l s : Forall (paP (fun m => m = n \/ (reply_from_store n (pp_pub s) = None /\ loosely K n m)))
  (outs (pp_step K (PInterest n l) s)).
Proof.
  set (Q := fun m => m = n \/ (reply_from_store n (pp_pub s) = None /\ loosely K n m)).
  cbn [pp_step]. unfold dispatch. destruct (is_prefix (pc_sync K ++ [HELLO]) n) eqn:H1; [|destruct (is_prefix (pc_sync K ++ [SYNC]) n) eqn:H2; [|constructor]].
  - unfold on_hello_interest. rewrite mbind_get. destruct (reply_from_store n (pp_pub s)) as [d|] eqn:R.
    + constructor; [|constructor]. exists n. split; [left; reflexivity|]. eapply reply_matches; eauto.
    + rewrite mbind_lift. destruct (is_hello_name n) as [[|]|e|u|]; try constructor. rewrite mbind_lift.
      destruct (append_ibf _ _ _ _) as [dn|e|u|] eqn:E; try constructor. apply append_ibf_ext in E as (c & ->).
      pose proof (pa_publish K (fun m => m = pc_sync K ++ [HELLO]) n (pc_sync K ++ [HELLO]) ((pc_sync K ++ [HELLO]) ++ [c]) (encode_names (hello_content (pp_core s))) (pc_hello_fresh K) eq_refl (is_prefix_app _ _)) as P.
      set (s0 := mkPP (pp_now s) (pp_core s) (pp_pub s) []).
      destruct (P s0) as [_ P2]; [intros k x F; discriminate F|].
      assert (outs (pp_publish K n ((pc_sync K ++ [HELLO]) ++ [c]) (encode_names (hello_content (pp_core s))) (pc_hello_fresh K) s0) =
              outs (pp_publish K n ((pc_sync K ++ [HELLO]) ++ [c]) (encode_names (hello_content (pp_core s))) (pc_hello_fresh K) s)) as Eo.
      { unfold pp_publish. cbn [pp_now pp_pub s0]. destruct (publish _ _ _ _ _ _ _) as [p [l0|e|u|]]; reflexivity. }
      rewrite Eo in P2. eapply Forall_impl; [|exact P2]. intros d (m & -> & Hm). exists (pc_sync K ++ [HELLO]). split; [|exact Hm].
      destruct (hello_loose K n H1) as [->|H']; [left; reflexivity|right; auto].
  - unfold on_sync_interest. rewrite mbind_get. destruct (reply_from_store n (pp_pub s)) as [d|] eqn:R.
    + constructor; [|constructor]. exists n. split; [left; reflexivity|]. eapply reply_matches; eauto.
    + destruct (sync_request _ n) as [rname|] eqn:Q1; [|constructor].
      assert (Q rname) as Hq by (destruct (sync_loose K n rname H2 Q1) as [->|H']; [left; reflexivity|right; auto]).
      rewrite mbind_lift. destruct (extract K rname) as [[[bf t]|]|e|u|]; try constructor. rewrite mbind_lift.
      destruct (iblt_sub _ _ _) as [d|e|u|]; try constructor. destruct (negb _).
      * unfold pp_send_nack. rewrite mbind_get, mbind_lift. destruct (append_ibf _ _ _ _) as [dn|e|u|] eqn:E; try constructor.
        -- exists rname. split; [exact Hq|]. apply append_ibf_ext in E as (c & ->). unfold full_name, nack_data, append_segment. cbn [d_name].
           rewrite <- !app_assoc. apply is_prefix_app.
        -- constructor.
      * rewrite mbind_lift. destruct (matching _ _ _) as [content|e|u|]; try constructor. destruct (_ || _); [|constructor].
        rewrite mbind_lift. destruct (append_ibf _ _ _ _) as [dn|e|u|] eqn:E; try constructor. apply append_ibf_ext in E as (c & ->).
        pose proof (pa_publish K (fun m => m = rname) n rname (rname ++ [c]) (encode_names content) (pc_sync_fresh K) eq_refl (is_prefix_app _ _)) as P.
        set (s0 := mkPP (pp_now s) (pp_core s) (pp_pub s) []).
        destruct (P s0) as [_ P2]; [intros k x F; discriminate F|].
        assert (outs (pp_publish K n (rname ++ [c]) (encode_names content) (pc_sync_fresh K) s0) =
                outs (pp_publish K n (rname ++ [c]) (encode_names content) (pc_sync_fresh K) s)) as Eo.
        { unfold pp_publish. cbn [pp_now pp_pub s0]. destruct (publish _ _ _ _ _ _ _) as [p [l0|e|u|]]; reflexivity. }
        rewrite Eo in P2. eapply Forall_impl; [|exact P2]. intros x (m & -> & Hm). exists rname. split; [exact Hq|exact Hm].
Qed.
(** a publication answers pending interests *)
Lemma publication_pending K p q s : Forall (paP (fun m => exists e, nm_find m (pp_pending s) = Some e)) (outs (pp_step K (PPublishName p q) s)).
Proof. apply (pa_step K _ (PPublishName p q) s); [intros n l H; discriminate H|]. intros k e F. eauto. Qed.
Lemma others_silent K e s : (forall p q, e <> PPublishName p q) -> (forall n l, e <> PInterest n l) -> outs (pp_step K e s) = [].
Proof.
  intros H1 H2. destruct e as [p|p|p q|n l|dt|key|i]; try reflexivity; [|destruct (H1 _ _ eq_refl)|destruct (H2 _ _ eq_refl)].
  cbn [pp_step]. rewrite mbind_get, mbind_lift. destruct (core_remove _ _); reflexivity.
Qed.

(** ** A waiting interest *)
Lemma interest_pending K s n l key e : pp_ok K s -> nm_find key (pp_pending s) = Some e ->
  nm_find key (pp_pending (st (pp_step K (PInterest n l) s))) = Some e \/
  (sync_request_for K n key (pe_bf e) (pe_iblt e) /\
   nm_find key (pp_pending (st (pp_step K (PInterest n l) s))) = Some (mkPentry (pe_bf e) (pe_iblt e) (Some (pp_now s + l, n)))).
Proof.
  intros Hok F. destruct (interest_cases K s n l) as [(d & R & E)|[(R & Hh)|[(R & rname & bf & t & Hq)|(E & _)]]].
  - rewrite E. left. exact F.
  - destruct (is_hello_total _ _ Hh) as (b & B). rewrite (step_hello K s n l b Hh R B). left.
    destruct b; [|exact F]. destruct (append_ibf _ _ _ _) as [dn| | |]; try exact F.
    destruct (pp_publish _ _ _ _ _ s) as [[s1 o1] r1] eqn:P. pose proof (pp_publish_frame _ _ _ _ _ _ _ _ _ P) as (Pp & _).
    cbn [st fst]. rewrite Pp. exact F.
  - rewrite (step_request _ _ _ _ _ _ _ Hq R), mbind_lift. destruct (iblt_sub _ _ _) as [d| | |]; try (left; exact F).
    unfold on_request. rewrite mbind_get. destruct (can_decode d); cbn [negb].
    + rewrite mbind_lift. destruct (matching _ _ _) as [names| | |]; try (left; exact F). destruct (_ || _).
      * rewrite mbind_lift. destruct (append_ibf _ _ _ _) as [dn| | |]; try (left; exact F).
        destruct (pp_publish _ _ _ _ _ s) as [[s1 o1] r1] eqn:P. pose proof (pp_publish_frame _ _ _ _ _ _ _ _ _ P) as (Pp & _).
        left. cbn [st fst]. rewrite Pp. exact F.
      * unfold mmod, st. cbn [fst snd pp_pending set_pending]. rewrite add_pending_find. destruct (name_eqb key rname) eqn:Q; [|left; exact F].
        apply name_eqb_eq in Q. subst rname. rewrite F. right. pose proof (po_entry _ _ Hok _ _ F) as He.
        destruct (sync_request_for_fun _ _ _ _ _ _ _ _ Hq He) as [-> ->]. split; [exact Hq|reflexivity].
    + unfold pp_send_nack. rewrite mbind_get, mbind_lift. left. destruct (append_ibf _ _ _ _) as [dn| | |]; try exact F.
  - rewrite E. left. exact F.
Qed.
(** the scheduled expiration of an entry erases that entry, or nothing *)
Definition own_expiry (K : pcfg) (s : pp) : Prop := forall key e dl n,
  nm_find key (pp_pending s) = Some e -> pe_expiry e = Some (dl, n) -> sync_request_for K n key (pe_bf e) (pe_iblt e).
Lemma own_step K e s : pp_ok K s -> own_expiry K s -> own_expiry K (st (pp_step K e s)).
Proof.
  intros Hok H key x dl n F X. destruct (pp_step K e s) as [[s' o'] r'] eqn:E. cbn [st fst] in F.
  destruct (pp_step_ok _ _ _ _ _ _ Hok E) as (_ & Ch & _).
  destruct (Ch _ _ F) as [F1|[(m & l & -> & Hq & Ex & _)|(y & dl' & m & -> & Fy & -> & Ey & Hn)]].
  - eapply H; eauto.
  - rewrite Ex in X. injection X as _ <-. exact Hq.
  - discriminate X.
Qed.
Lemma run_own K evs s o : pp_run K (pp_new K) evs = Some (s, o) -> own_expiry K s.
Proof.
  intros R. enough (pp_ok K s /\ own_expiry K s) by tauto.
  eapply (run_inv (pp_step K) (fun s => pp_ok K s /\ own_expiry K s)); [| |exact R].
  - intros e a [A B]. split; [|apply own_step; auto]. destruct (pp_step K e a) as [[s' o'] r'] eqn:E. eapply pp_step_ok; eauto.
  - split; [apply pp_new_ok|]. intros key e dl n F. discriminate F.
Qed.
Lemma request_length K n key bf t : sync_request_for K n key bf t -> length key = (length (pc_sync K) + 5)%nat.
Proof. intros (c1 & c2 & c3 & c4 & tail & -> & _). rewrite app_length. reflexivity. Qed.
Lemma request_key_or_longer K n key bf t : sync_request_for K n key bf t -> n = key \/ length n = (length (pc_sync K) + 7)%nat.
Proof.
  intros (c1 & c2 & c3 & c4 & tail & -> & -> & [L|L] & _).
  - destruct tail; [|discriminate]. left. apply app_nil_r.
  - right. rewrite !app_length, L. cbn [length]. lia.
Qed.
Lemma expire_pending K s k key e : pp_ok K s -> own_expiry K s -> nm_find key (pp_pending s) = Some e ->
  nm_find key (pp_pending (expire k s)) = Some e \/
  (k = key /\ exists dl n, pe_expiry e = Some (dl, n) /\ dl <= pp_now s /\
    nm_find key (pp_pending (expire k s)) = if name_eqb n key then None else Some (mkPentry (pe_bf e) (pe_iblt e) None)).
Proof.
  intros Hok Hex F. unfold expire. destruct (nm_find k (pp_pending s)) as [x|] eqn:Fk; [|left; exact F].
  destruct (pe_expiry x) as [[dl n]|] eqn:X; [|left; exact F]. destruct (dl <=? pp_now s) eqn:L; [|left; exact F].
  cbn [pp_pending set_pending]. apply N.leb_le in L.
  assert (nm_sorted (nm_set k (mkPentry (pe_bf x) (pe_iblt x) None) (pp_pending s))) as Hso by (apply nm_set_sorted; apply Hok).
  rewrite nm_find_erase by exact Hso. rewrite nm_find_set. destruct (name_eqb key k) eqn:Q.
  - apply name_eqb_eq in Q. subst k. rewrite F in Fk. injection Fk as <-. right. split; [reflexivity|]. exists dl, n. split; [exact X|]. split; [exact L|].
    rewrite (name_eqb_sym key n). destruct (name_eqb n key); reflexivity.
  - destruct (name_eqb key n) eqn:Qn; [|left; exact F]. apply name_eqb_eq in Qn. subst n. exfalso.
    pose proof (Hex _ _ _ _ Fk X) as Hq. pose proof (request_length _ _ _ _ _ (po_entry _ _ Hok _ _ F)) as L1.
    destruct (request_key_or_longer _ _ _ _ _ Hq) as [->|L2]; [rewrite name_eqb_refl in Q; discriminate|lia].
Qed.
Lemma step_pending K e s key x : pp_ok K s -> own_expiry K s -> nm_find key (pp_pending s) = Some x ->
  (forall p q, e <> PPublishName p q) ->
  nm_find key (pp_pending (st (pp_step K e s))) = Some x \/
  (exists n l, e = PInterest n l /\ sync_request_for K n key (pe_bf x) (pe_iblt x) /\
     nm_find key (pp_pending (st (pp_step K e s))) = Some (mkPentry (pe_bf x) (pe_iblt x) (Some (pp_now s + l, n)))) \/
  (e = PExpire key /\ exists dl n, pe_expiry x = Some (dl, n) /\ dl <= pp_now s /\
    nm_find key (pp_pending (st (pp_step K e s))) = if name_eqb n key then None else Some (mkPentry (pe_bf x) (pe_iblt x) None)).
Proof.
  intros Hok Hex F Hp. destruct e as [p|p|p q|n l|dt|k|i].
  - left. exact F.
  - left. cbn [pp_step]. rewrite mbind_get, mbind_lift. destruct (core_remove _ _); exact F.
  - destruct (Hp _ _ eq_refl).
  - destruct (interest_pending K s n l key x Hok F) as [H|[H1 H2]]; [left; exact H|]. right. left. exists n, l. auto.
  - left. exact F.
  - destruct (expire_pending K s k key x Hok Hex F) as [H|(-> & dl & n & H)]; [left; exact H|]. right. right. split; [reflexivity|]. exists dl, n. exact H.
  - left. exact F.
Qed.
Lemma waits_run K key x dl n : pe_expiry x = Some (dl, n) -> forall evs s s' o, pp_ok K s -> own_expiry K s ->
  nm_find key (pp_pending s) = Some x -> leaves_alone K key evs -> pp_run K s evs = Some (s', o) -> pp_now s' < dl ->
  nm_find key (pp_pending s') = Some x.
Proof.
  intros X evs. induction evs as [|e evs IH] using rev_ind; intros s s' o Hok Hex F Hl R Ht.
  - injection R as <- _. exact F.
  - pose proof (run_snoc _ _ _ _ _ _ R) as (s1 & o1 & o2 & R1 & Es & _).
    assert (pp_ok K s1 /\ own_expiry K s1) as [Hok1 Hex1].
    { eapply (run_inv (pp_step K) (fun s => pp_ok K s /\ own_expiry K s)); [|split; [exact Hok|exact Hex]|exact R1].
      intros e0 a [A B]. split; [|apply own_step; auto]. destruct (pp_step K e0 a) as [[s2 o3] r'] eqn:E. eapply pp_step_ok; eauto. }
    assert (pp_now s1 <= pp_now s') as Hn.
    { destruct (pp_step K e s1) as [[s2 o3] r'] eqn:E. cbn [st fst] in Es. subst s2. destruct (pp_step_ok _ _ _ _ _ _ Hok1 E) as (_ & _ & T & _).
      rewrite T. destruct e; lia. }
    assert (nm_find key (pp_pending s1) = Some x) as F1.
    { apply (IH s s1 o1 Hok Hex F); [intros e0 He0; apply Hl; apply in_or_app; auto|exact R1|lia]. }
    assert (In e (evs ++ [e])) as Hin by (apply in_or_app; right; left; reflexivity). specialize (Hl e Hin).
    destruct (step_pending K e s1 key x Hok1 Hex1 F1) as [H|[(m & l & -> & Hq & _)|(-> & dl' & m & Y & L & _)]].
    + intros p q ->. exact Hl.
    + rewrite Es in H. exact H.
    + destruct (Hl _ _ Hq).
    + rewrite X in Y. injection Y as <- _. lia.
Qed.
