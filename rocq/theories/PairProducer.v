(** What a partial producer ever sends; used by Properties_Pair. *)
From Coq Require Import List NArith ZArith Bool Arith Lia.
From Verif Require Import Base Mon MonFacts Iblt BaseFacts IbltFacts SpecIblt HonestFacts IbltProps
  Tlv State NMap TlvFacts NMapFacts Codec CodecFacts Bloom SpecBloom BloomFacts Store StoreFacts
  Producer SpecProducer ProducerFacts Properties_Producer Partial SpecPartial PartialFacts PartialSteps Properties_Partial
  Full Consumer SpecConsumer SpecGroup GroupFacts SpecPair.
Import ListNotations.
Local Open Scope N_scope.

(** ** Points of a history *)
Lemma point_app n a b k : point n a k -> point n (a ++ b) k.
Proof. intros (pre & post & -> & H). exists pre, (post ++ b). rewrite app_assoc. auto. Qed.
Lemma point_all n a k : crun (core_new n) a = Ok k -> point n a k.
Proof. intros H. exists a, []. rewrite app_nil_r. auto. Qed.
Lemma point_history n evs evs' k : point n (history evs) k -> point n (history (evs ++ evs')) k.
Proof. rewrite history_app. apply point_app. Qed.

Section Producer.
Variable K : pcfg.
Let n := pc_n K.

Definition ppacket (P : list pubn) (d : data) : Prop :=
  exists k x i, nth_error P k = Some x /\ (i < nseg (pn_buf x))%nat /\
    d = seg_data (pc_env K) (pn_signed x) (append_version (pn_name x) (en_version (pc_env K) k))
          (pn_buf x) (pn_fresh x) i.
Definition pnack (d : data) : Prop :=
  exists rname bf t c sg f, sync_request_for K rname rname bf t /\ ctype c = TYPE_GENERIC /\
    d = nack_data (pc_env K) sg f (rname ++ [c]).
Definition exact_with (evs : list pev) (ks : list N) : Prop :=
  forall k, point n (history evs) k -> exact_difference K k ks.
(** [names] is everything that a consumer with filter [bf] and the IBF [t] lacks of [k] *)
Definition complete_for (evs : list pev) (k : core) (bf : bloom) (t : table) (names : list name) : Prop :=
  forall ks nm, NoDup ks -> IbfOf n ks t -> exact_with evs ks -> In nm (live k) ->
    bloom_contains bf (name_prefix_back nm 1) = Ok true -> In (name_hash nm) ks \/ In nm names.
Definition hello_pub (k : core) (c : comp) (x : pubn) : Prop :=
  pn_name x = pc_sync K ++ [HELLO; c] /\ pn_names x = hello_content k.
Definition sync_pub (evs : list pev) (k : core) (c : comp) (x : pubn) : Prop :=
  exists rname bf t, pn_name x = rname ++ [c] /\ sync_request_for K rname rname bf t /\
    (forall nm, In nm (pn_names x) -> exists p v, nm = append_number p v /\ get_seq p k = Some v) /\
    complete_for evs k bf t (pn_names x).
Definition good_pub (evs : list pev) (x : pubn) : Prop :=
  pn_buf x = encode_names (pn_names x) /\ NoDup (pn_names x) /\
  exists k c, point n (history evs) k /\ carries_ibf (pc_codec K) (pc_scheme K) c (k_iblt k) /\
    (hello_pub k c x \/ sync_pub evs k c x).
Record pinv (P : list pubn) (evs : list pev) (b : pub) (o : list data) : Prop := mkPinv {
  pi_len : length P = pb_published b;
  pi_good : forall x, In x P -> good_pub evs x;
  pi_store : forall d, In d (pb_store b) -> ppacket P d;
  pi_sent : forall d, In d o -> ppacket P d \/ pnack d }.

Lemma ppacket_app P Q d : ppacket P d -> ppacket (P ++ Q) d.
Proof.
  intros (k & x & i & A & B). exists k, x, i. split; auto. rewrite nth_error_app1; auto.
  apply nth_error_Some. congruence.
Qed.
Lemma exact_with_app evs evs' ks : exact_with (evs ++ evs') ks -> exact_with evs ks.
Proof. intros H k Hk. apply H. apply point_history. auto. Qed.
Lemma complete_app evs evs' k bf t l : complete_for evs k bf t l -> complete_for (evs ++ evs') k bf t l.
Proof. intros H ks nm A B C. apply H; auto. eapply exact_with_app; eauto. Qed.
Lemma good_app evs evs' x : good_pub evs x -> good_pub (evs ++ evs') x.
Proof.
  intros (A & B & k & c & Hk & Hc & H). split; auto. split; auto. exists k, c.
  split; [apply point_history; auto|]. split; auto. destruct H as [H|(rn & bf & t & X & Y & Z & V)]; [auto|].
  right. exists rn, bf, t. repeat (split; auto). apply complete_app. auto.
Qed.
Lemma pinv_app P evs evs' b o : pinv P evs b o -> pinv P (evs ++ evs') b o.
Proof. intros [A B C D]. split; auto. intros x Hx. apply good_app. auto. Qed.

Lemma pinv_publish P evs s o i dn names fresh s' o' r :
  pinv P evs (pp_pub s) o -> pp_publish K i dn (encode_names names) fresh s = (s', o', r) ->
  (forall sg, good_pub evs (mkPubn dn names (encode_names names) fresh sg)) ->
  exists Q, pinv Q evs (pp_pub s') (o ++ o').
Proof.
  intros [A B C D] E G. rewrite pp_publish_eq in E. injection E as <- <- _.
  set (x := mkPubn dn names (encode_names names) fresh (pb_signed (pp_pub s))).
  exists (P ++ [x]).
  assert (forall d, In d (segment (pc_env K) (pb_signed (pp_pub s)) (append_version dn (en_version (pc_env K) (pb_published (pp_pub s)))) (encode_names names) fresh) ->
    ppacket (P ++ [x]) d) as Hs.
  { intros d Hd. apply segment_In in Hd as (j & Hj & ->). exists (length P), x, j.
    rewrite nth_error_app2, Nat.sub_diag by lia. rewrite A. auto. }
  unfold publish. cbn [fst snd pp_pub set_pub]. rewrite insert_segments_eq.
  split; cbn [pb_store pb_limit pb_timers pb_published pb_signed].
  - rewrite app_length. simpl. lia.
  - intros y Hy. apply in_app_or in Hy as [Hy|[<-|[]]]; auto. apply G.
  - intros d Hd. apply fold_insert_In in Hd as [Hd|Hd]; [apply ppacket_app; auto|apply Hs; auto].
  - intros d Hd. apply in_app_or in Hd as [Hd|Hd].
    + destruct (D d Hd); auto using ppacket_app.
    + left. apply Hs. destruct (put_segment i _) as [l|e|u|] eqn:E; try contradiction.
      eapply put_segment_In; eauto.
Qed.
Lemma pinv_store P evs b b' o o' : pinv P evs b o -> pb_published b' = pb_published b ->
  (forall d, In d (pb_store b') -> In d (pb_store b)) -> (forall d, In d o' -> ppacket P d \/ pnack d) ->
  pinv P evs b' (o ++ o').
Proof.
  intros [A B C D] E F G. split; auto; [congruence|]. intros d Hd. apply in_app_or in Hd as [Hd|Hd]; auto.
Qed.
Lemma pinv_quiet P evs b o : pinv P evs b o -> pinv P evs b (o ++ []).
Proof. rewrite app_nil_r. auto. Qed.

Lemma pinv_satisfy evs p v keys : forall P s os s' o r,
  pinv P evs (pp_pub s) os -> pp_ok K s -> point n (history evs) (pp_core s) ->
  get_seq p (pp_core s) = Some v ->
  (forall key e x, nm_find key (pp_pending s) = Some e -> bloom_contains (pe_bf e) p = Ok x ->
     complete_for evs (pp_core s) (pe_bf e) (pe_iblt e) (if (x : bool) then [append_number p v] else [])) ->
  satisfy K p keys s = (s', o, r) -> exists Q, pinv Q evs (pp_pub s') (os ++ o).
Proof.
  induction keys as [|key keys IH]; intros P s os s' o r I Hok Hp Hv Hc E; cbn [satisfy] in E.
  - injection E as <- <- _. exists P. apply pinv_quiet. auto.
  - unfold mbind in E at 1. destruct (satisfy_one K p key s) as [[s1 o1] r1] eqn:E1.
    assert (exists Q, pinv Q evs (pp_pub s1) (os ++ o1)) as (Q & I1).
    { unfold satisfy_one in E1. rewrite mbind_get in E1.
      assert (exists Q, pinv Q evs (pp_pub s) (os ++ [])) as T by (exists P; apply pinv_quiet; auto).
      destruct (nm_find key (pp_pending s)) as [e|] eqn:Fe; [|injection E1 as <- <- _; auto].
      rewrite mbind_lift in E1. destruct (iblt_sub _ _ _) as [d| | |]; try (injection E1 as <- <- _; exact T).
      destruct (negb _); [injection E1 as <- <- _; exact T|].
      rewrite mbind_lift in E1. destruct (bloom_contains _ _) as [x| | |] eqn:Ex; try (injection E1 as <- <- _; exact T).
      destruct (_ || _); [|injection E1 as <- <- _; exact T].
      rewrite mbind_lift in E1. destruct (append_ibf _ _ _ _) as [dn| | |] eqn:Ea; try (injection E1 as <- <- _; exact T).
      apply append_ibf_carries in Ea as (c & Hcc & ->).
      unfold mbind in E1.
      match type of E1 with context [pp_publish ?a ?b ?c ?d ?e ?f] =>
        destruct (pp_publish a b c d e f) as [[s2 o2] r2] eqn:Pb end.
      rewrite Hv in Pb.
      destruct (pinv_publish _ _ _ _ _ _ _ _ _ _ _ I Pb) as (Q & I2).
      { intros sg. split; [reflexivity|]. split; [destruct x; repeat constructor; auto|].
        exists (pp_core s), c. split; auto. split; auto. right. exists key, (pe_bf e), (pe_iblt e).
        split; [reflexivity|]. split; [apply (po_entry _ _ Hok _ _ Fe)|].
        split; [|apply (Hc key e x Fe Ex)].
        cbn [pn_names]. destruct x; intros nm; [intros [<-|[]]; eauto|intros []]. }
      exists Q. destruct r2; try (injection E1 as <- <- _; exact I2).
      unfold mmod in E1. rewrite app_nil_r in E1. injection E1 as <- <- _. exact I2. }
    destruct r1; try (injection E as <- <- _; exists Q; exact I1).
    destruct (satisfy K p keys s1) as [[s2 o2] r2] eqn:E2. injection E as <- <- _.
    destruct (satisfy_one_ok _ _ _ _ _ _ _ Hok E1) as (Hok1 & _ & Sb & _).
    assert (pp_core s1 = pp_core s) as Ec.
    { pose proof (satisfy_core K p [key] s) as X. cbn [satisfy] in X. unfold st, mbind in X. rewrite E1 in X.
      exact X. }
    rewrite app_assoc. eapply (IH Q s1 (os ++ o1) s2 o2 r2); eauto.
    + rewrite Ec. auto.
    + rewrite Ec. auto.
    + rewrite Ec. intros key' e' x Fe. apply (Hc key'). apply Sb. auto.
Qed.

Lemma core_publish_some p q k k' v : core_publish p q k = Ok (k', Some v) -> exists v', get_seq p k' = Some v'.
Proof.
  unfold core_publish, get_seq. destruct (nm_find p (k_prefixes k)) as [cur|] eqn:E; [|discriminate].
  intros H. apply obind_ok in H as (k1 & H & [= <- _]). unfold core_update in H. rewrite E in H.
  destruct (_ <=? _); [injection H as <-; eauto|].
  apply obind_ok in H as (k2 & _ & H). apply obind_ok in H as (t & _ & H). injection H as <-. cbn [k_prefixes].
  rewrite nm_find_set, name_eqb_refl. eauto.
Qed.

Lemma hello_NoDup (m : nmap N) : nm_sorted m -> (forall p v, nm_find p m = Some v -> v < two64) ->
  NoDup (map (fun x => append_number (fst x) (snd x)) m).
Proof.
  intros S B. assert (forall p v, In (p, v) m -> v < two64) as Hb by (intros p v H; apply (B p); apply nm_In_find; auto).
  clear B. apply nm_sorted_NoDup in S. induction m as [|[p v] m IH]; simpl in *; [constructor|].
  inversion S as [|? ? S1 S2]; subst. constructor; [|apply IH; eauto].
  intros H. apply in_map_iff in H as ((q & w) & E & Hi). cbn [fst snd] in E.
  apply append_number_inj in E as [-> ->]; eauto. apply S1. apply in_map_iff. exists (p, v). auto.
Qed.

Hypothesis Sk : scheme_ok (pc_codec K) (pc_scheme K).

Lemma exact_through evs ks : exact_with evs ks -> exact_throughout K evs ks.
Proof.
  intros H pre post s o -> R. apply H. apply point_history.
  apply point_all. apply (pp_run_core _ _ _ _ _ R).
Qed.
Lemma bimap_live evs s o h nm : Forall pev_wf evs -> collision_free n (history evs) -> pp_run K (pp_new K) evs = Some (s, o) ->
  (bm_left h (k_bimap (pp_core s)) = Some nm <-> In nm (live (pp_core s)) /\ h = name_hash nm).
Proof.
  intros W Hc R. destruct (reach_core _ _ _ _ W R) as [W' C].
  pose proof (C30_ibf_is_current_names _ _ _ W' C Hc) as [_ Hl]. apply Hl.
Qed.

Theorem producer_packets evs : forall s o, Forall pev_wf evs -> collision_free n (history evs) ->
  pp_run K (pp_new K) evs = Some (s, o) -> exists P, pinv P evs (pp_pub s) o.
Proof.
  induction evs as [|ev evs IH] using rev_ind; intros s o W Hc R.
  - injection R as <- <-. exists []. split; [reflexivity|intros x []|intros x []|intros x []].
  - pose proof (run_snoc _ _ _ _ _ _ R) as (s1 & o1 & o2 & R1 & Es & Eo & -> & Hres).
    assert (Forall pev_wf evs) as W1 by (apply Forall_app in W; tauto).
    assert (collision_free n (history evs)) as Hc1
      by (rewrite history_app in Hc; apply collision_free_app in Hc; exact Hc).
    destruct (IH s1 o1 W1 Hc1 R1) as (P & I). clear IH.
    apply (pinv_app P evs [ev]) in I.
    destruct (pp_step K ev s1) as [[s0 o0] r0] eqn:E. cbn in Es, Eo, Hres. subst s0 o0.
    pose proof (pp_run_ok _ _ _ _ R1) as Hok.
    assert (exists Q, pinv Q (evs ++ [ev]) (pp_pub s1) (o1 ++ [])) as T by (exists P; apply pinv_quiet; auto).
    assert (point n (history (evs ++ [ev])) (pp_core s1)) as Pt1
      by (apply point_history; apply point_all; apply (pp_run_core _ _ _ _ _ R1)).
    destruct ev as [p|p|p q|nm l|dt|key|j].
    + injection E as <- <- _. exact T.
    + cbn [pp_step] in E. rewrite mbind_get, mbind_lift in E.
      destruct (core_remove p (pp_core s1)); injection E as <- <- _; exact T.
    + pose proof E as E0. cbn [pp_step] in E. unfold pp_publish_name in E. rewrite mbind_get, mbind_lift in E.
      destruct (core_publish p q (pp_core s1)) as [[k x]| | |] eqn:Pb; try (injection E as <- <- _; exact T).
      rewrite mbind_mod in E. cbn [fst snd] in E. destruct x as [v|]; [|injection E as <- <- _; exact T].
      destruct (core_publish_some _ _ _ _ _ Pb) as (v' & Hv).
      assert (pp_core s = k) as Ek.
      { pose proof (satisfy_core K p (nm_keys (pp_pending s1)) (set_core k s1)) as X. unfold st in X.
        rewrite E in X. exact X. }
      apply (pinv_satisfy (evs ++ [PPublishName p q]) p v' (nm_keys (pp_pending s1)) P (set_core k s1) o1 s o2 r0 I); auto using pp_ok_core.
      * cbn [pp_core set_core]. apply point_all. rewrite <- Ek. apply (pp_run_core _ _ _ _ _ R).
      * cbn [pp_core set_core pp_pending]. intros key e x Fe Ex ks nm Nk Hi Xk Hl Hb.
        rewrite <- Ek in Hl.
        destruct (live_step K evs s1 o1 (PPublishName p q) s _ nm W R1 R Hl) as [Hl1|(p' & q' & [= <- <-] & Hp)].
        -- left. apply (C38_no_update_skipped K evs s1 o1 ks key e nm); auto.
           apply exact_through. eapply exact_with_app; eauto.
        -- right. rewrite Hp in Hb. rewrite Hb in Ex. injection Ex as <-. left.
           destruct (reach_core _ _ _ _ W R) as [W2 C2].
           pose proof (C29_sequence_numbers _ _ _ p W2 C2) as Sq.
           apply (C30_live_names _ _ _ nm W2 C2) in Hl as (p1 & v1 & Hv1 & _ & ->).
           unfold append_number in Hp. rewrite name_prefix_back_snoc in Hp. subst p1.
           rewrite Ek in Sq. congruence.
    + destruct (interest_cases K s1 nm l) as [(d & Rp & E')|[(Rp & Hh)|[(Rp & rname & bf & t & Hq)|(E1 & E2 & _)]]].
      * rewrite E' in E. injection E as <- <- _. exists P. apply pinv_store with (b := pp_pub s1); auto.
        intros x [<-|[]]. left. apply (pi_store _ _ _ _ I). unfold reply_from_store in Rp.
        apply store_find_Some in Rp. tauto.
      * destruct (is_hello_total _ _ Hh) as (b & B). rewrite (step_hello K s1 nm l b Hh Rp B) in E.
        destruct b; [|injection E as <- <- _; exact T].
        destruct (append_ibf _ _ _ _) as [dn| | |] eqn:Ea; try (injection E as <- <- _; exact T).
        apply append_ibf_carries in Ea as (c & Hcc & ->).
        eapply pinv_publish; [exact I|exact E|]. intros sg. split; [reflexivity|]. split.
        -- cbn [pn_names]. unfold hello_content. destruct (reach_core _ _ _ _ W1 R1) as [W' C].
           pose proof (crun_pfx _ _ _ (core_new_pfx _) W' C) as [So Bo]. apply hello_NoDup; auto.
        -- exists (pp_core s1), c. split; auto. split; auto. left. split; [|reflexivity].
           cbn [pn_name]. rewrite <- app_assoc. reflexivity.
      * destruct (append_cases K rname (k_iblt (pp_core s1)) Sk) as (c & _ & Hcc).
        destruct (iblt_sub (pc_fuel K) (k_iblt (pp_core s1)) t) as [d|e|u|] eqn:D.
        -- destruct (can_decode d) eqn:Cd.
           ++ destruct (matching (k_bimap (pp_core s1)) bf (positive d)) as [names|e|u|] eqn:M.
              ** rewrite (step_decoded _ _ _ _ _ _ _ _ _ _ Sk Hq Rp D Cd M Hcc) in E.
                 destruct (_ || _); [|injection E as <- <- _; exact T].
                 eapply pinv_publish; [exact I|exact E|]. intros sg. split; [reflexivity|]. split.
                 { cbn [pn_names]. eapply matching_NoDup; [|intros h h' x A B|exact M].
                   - apply PartialFacts.iblt_sub_sorted in D as [D _]. apply nsorted_NoDup. auto.
                   - apply (bimap_live evs s1 o1) in A as [_ ->]; auto. apply (bimap_live evs s1 o1) in B as [_ ->]; auto. }
                 exists (pp_core s1), c. split; auto. split; auto. right. exists rname, bf, t.
                 split; [reflexivity|]. split; [eapply sync_request_for_key; eauto|]. cbn [pn_names]. split.
                 { intros x Hx. apply (matching_In _ _ _ _ M) in Hx as (h & _ & Hx & _).
                   apply (bimap_live evs s1 o1) in Hx as [Hx _]; auto.
                   destruct (reach_core _ _ _ _ W1 R1) as [W' C].
                   apply (C30_live_names _ _ _ x W' C) in Hx as (p1 & v1 & Hv1 & _ & ->).
                   exists p1, v1. split; auto. rewrite <- Hv1. apply (C29_sequence_numbers _ _ _ p1 W' C). }
                 intros ks x Nk Hi Xk Hl Hb.
                 destruct (in_dec N.eq_dec (name_hash x) ks) as [|Hn]; auto. right.
                 destruct (exact_at K evs s1 o1 ks t W1 Hc1 R1 Nk Hi) as (d' & D' & De & _).
                 { apply Xk. exact Pt1. }
                 rewrite D in D'. injection D' as <-. destruct (De Cd) as [Dp _].
                 apply (matching_In _ _ _ _ M). exists (name_hash x). split; [|split; auto].
                 --- apply Dp. split; auto. apply in_map. exact Hl.
                 --- apply (bimap_live evs s1 o1); auto.
              ** destruct (matching_no_throw _ _ _ _ M).
              ** rewrite (step_request _ _ _ _ _ _ _ Hq Rp), mbind_lift, D in E. unfold on_request in E.
                 rewrite mbind_get, Cd in E. cbn [negb] in E. rewrite mbind_lift, M in E. injection E as <- <- _. exact T.
              ** rewrite (step_request _ _ _ _ _ _ _ Hq Rp), mbind_lift, D in E. unfold on_request in E.
                 rewrite mbind_get, Cd in E. cbn [negb] in E. rewrite mbind_lift, M in E. injection E as <- <- _. exact T.
           ++ rewrite (step_nack _ _ _ _ _ _ _ _ _ Sk Hq Rp D Cd Hcc) in E. injection E as <- <- _.
              exists P. apply pinv_store with (b := pp_pub s1); auto.
              intros x [<-|[]]. right. exists rname, bf, t, c, (pb_signed (pp_pub s1)), (pc_sync_fresh K).
              split; [eapply sync_request_for_key; eauto|]. split; [apply Hcc|reflexivity].
        -- destruct (iblt_sub_no_throw _ _ _ _ D).
        -- rewrite (step_request _ _ _ _ _ _ _ Hq Rp), mbind_lift, D in E. injection E as <- <- _. exact T.
        -- rewrite (step_request _ _ _ _ _ _ _ Hq Rp), mbind_lift, D in E. injection E as <- <- _. exact T.
      * rewrite E in E1, E2. cbn in E1, E2. subst. exact T.
    + injection E as <- <- _. exact T.
    + injection E as <- <- _. unfold expire. destruct (nm_find _ _) as [e|]; [|exact T].
      destruct (pe_expiry e) as [[dl x]|]; [|exact T]. destruct (_ <=? _); exact T.
    + injection E as <- <- _. exists P. apply pinv_store with (b := pp_pub s1); auto.
      * cbn [pp_pub set_pub]. unfold pub_fire. destruct (nth_error _ _) as [[dl x]|]; auto. destruct (dl <=? _); auto.
      * cbn [pp_pub set_pub]. intros d. apply pub_fire_In.
      * intros d [].
Qed.
End Producer.

(** ** What a fetch for the producer's packets brings *)
Section Gather.
Variable K : pcfg.
Let n := pc_n K.

Lemma get_lt evs k p v : Forall pev_wf evs -> point n (history evs) k -> get_seq p k = Some v -> v < two64.
Proof.
  intros W (pre & post & E & C) G. apply history_wf in W. rewrite E in W. apply Forall_app in W as [W _].
  destruct (crun_pfx _ _ _ (core_new_pfx _) W C) as [_ B]. exact (B p v G).
Qed.
Lemma hello_In evs k nm : Forall pev_wf evs -> point n (history evs) k ->
  (In nm (hello_content k) <-> exists p v, nm = append_number p v /\ get_seq p k = Some v).
Proof.
  intros W (pre & post & E & C). apply history_wf in W. rewrite E in W. apply Forall_app in W as [W _].
  destruct (crun_pfx _ _ _ (core_new_pfx _) W C) as [S _]. unfold hello_content. rewrite in_map_iff. split.
  - intros ((p & v) & <- & Hi). exists p, v. split; auto. apply nm_In_find; auto.
  - intros (p & v & -> & G). exists (p, v). split; auto. apply nm_find_In; auto.
Qed.
(** the names of a publication are names the producer had *)
Lemma good_names evs x : Forall pev_wf evs -> good_pub K evs x -> forall nm, In nm (pn_names x) ->
  exists p v, nm = append_number p v /\ had n (history evs) p v.
Proof.
  intros W (_ & _ & k & c & Pt & _ & H) nm Hn.
  assert (exists p v, nm = append_number p v /\ get_seq p k = Some v) as (p & v & -> & G).
  { destruct H as [(_ & E)|(rn & bf & t & _ & _ & Z & _)]; [|auto]. rewrite E in Hn. apply (hello_In evs k nm W Pt). auto. }
  exists p, v. split; auto. destruct Pt as (pre & post & E & C). exists pre, post, k. auto.
Qed.
Lemma good_size evs x : Forall pev_wf evs -> sendable n (history evs) -> good_pub K evs x ->
  wf_names (pn_names x) /\ N.of_nat (length (pn_buf x)) < two64.
Proof.
  intros W Sz G. pose proof (good_names evs x W G) as Hn. destruct G as (E & Nd & _). rewrite E. apply Sz; auto.
Qed.
Lemma nseg_small buf : N.of_nat (length buf) < two64 -> N.of_nat (nseg buf) <= two64.
Proof.
  intros H. pose proof (nseg_bounds buf) as (_ & _ & Hz). pose proof SEG_SIZE_pos.
  destruct buf as [|b bs]; [discriminate|].
  assert (nseg (b :: bs) <= length (b :: bs))%nat; [|lia].
  assert (b :: bs <> []) as Hne by discriminate. specialize (Hz Hne). nia.
Qed.

(** a completed fetch brought one whole publication, or a Nack *)
Lemma gather1 P evs b o w nm d buf : pinv K P evs b o -> Forall pev_wf evs -> sendable n (history evs) ->
  b = pp_pub (du_prod w) -> evs = du_evs w -> told_apart K w -> completes (fun x => In x o) nm d buf ->
  (exists x ver, In x P /\ buf = pn_buf x /\ d_type d = Blob /\ (exists c, d_final d = Some c) /\
     name_prefix_back (d_name d) 2 = pn_name x /\ is_prefix nm (append_version (pn_name x) ver) = true) \/
  (d_type d = AppNack /\ (exists c, d_final d = Some c) /\ exists rname bf t c,
     sync_request_for K rname rname bf t /\ is_prefix nm (rname ++ [c]) = true).
Proof.
  intros I W Sz Eb Ee Un (base & segs & c & last & Pre & Ind & Fi & Fl & Len & Sg & ->).
  assert (forall x, In x P -> N.of_nat (nseg (pn_buf x)) <= two64) as Hn.
  { intros x Hx. apply nseg_small. apply (good_size evs x W Sz). apply (pi_good _ _ _ _ _ I). auto. }
  assert (forall p k sg f rn bf t cc, sync_request_for K rn rn bf t -> ctype cc = TYPE_GENERIC ->
    forall i, d_name (nack_data (pc_env K) sg f (rn ++ [cc])) = append_segment (append_version p k) (N.of_nat i) ->
    False) as Mix.
  { intros p k sg f rn bf t cc _ Hc i H. cbn [d_name nack_data] in H. unfold append_segment in H.
    apply app_inj_tail in H as [H _]. unfold append_version in H. apply app_inj_tail in H as [_ H].
    rewrite H in Hc. discriminate Hc. }
  destruct (In_nth_error _ _ Ind) as (i1 & Hi1). destruct (Sg i1 d Hi1) as [Do Nm].
  destruct (pi_sent _ _ _ _ _ I d Do) as [(k & x & s & Hk & Hs & ->)|(rn & bf & t & cc & sg & f & Rq & Hc & ->)].
  2:{ right. split; [reflexivity|]. split; [eexists; reflexivity|]. exists rn, bf, t, cc. split; auto.
      cbn [d_name nack_data] in Nm. unfold append_segment in Nm. apply app_inj_tail in Nm as [-> _]. auto. }
  assert (In x P) as Hx by (eapply nth_error_In; eauto). pose proof (Hn x Hx) as Hnx.
  pose proof (nseg_bounds (pn_buf x)) as (B0 & _ & _).
  cbn [d_final seg_data] in Fi. injection Fi as <-.
  unfold to_segment in Fl. rewrite number_is_segment in Fl. injection Fl as Fl. cbn [cval number_comp] in Fl.
  rewrite nni_dec in Fl by lia.
  assert (length segs = nseg (pn_buf x)) as Ls by lia.
  assert (i1 < nseg (pn_buf x))%nat as Hl1 by (rewrite <- Ls; apply nth_error_Some; congruence).
  cbn [d_name seg_data] in Nm. pose proof Nm as Nm0. apply append_segment_inj in Nm as [Nb Ni]; [|lia|lia].
  left. exists x, (en_version (pc_env K) k). split; auto. split.
  2:{ split; [reflexivity|]. split; [eexists; reflexivity|]. split; [|rewrite Nb; exact Pre].
      cbn [d_name seg_data]. unfold append_segment, append_version, name_prefix_back. rewrite !app_length. simpl length.
      replace (length (pn_name x) + 1 + 1 - 2)%nat with (length (pn_name x)) by lia.
      rewrite <- app_assoc, firstn_app, Nat.sub_diag, firstn_all, firstn_O, app_nil_r. reflexivity. }
  rewrite <- (segment_content (pc_env K) (pn_signed x) (append_version (pn_name x) (en_version (pc_env K) k)) (pn_buf x) (pn_fresh x)).
  do 2 f_equal. apply ExchangeFacts.nth_error_ext; [rewrite segment_length; auto|].
  intros i y Hy. assert (i < nseg (pn_buf x))%nat as Hlt by (rewrite <- Ls; apply nth_error_Some; congruence).
  rewrite segment_nth by auto. destruct Un as [[Small Un]|One].
  - destruct (Sg i y Hy) as [Dy Ny].
    destruct (pi_sent _ _ _ _ _ I y Dy) as [(k' & x' & s' & Hk' & Hs' & ->)|(rn & bf & t & cc & sg & f & Rq & Hc & ->)].
    2:{ rewrite <- Nb in Ny. destruct (Mix _ _ _ _ _ _ _ _ Rq Hc _ Ny). }
    assert (In x' P) as Hx' by (eapply nth_error_In; eauto). pose proof (Hn x' Hx') as Hnx'.
    cbn [d_name seg_data] in Ny. apply append_segment_inj in Ny as [Nb' Ni']; [|lia|lia].
    rewrite <- Nb in Nb'. unfold append_version in Nb'. apply app_inj_tail in Nb' as [_ Nv].
    assert (k < pb_published (pp_pub (du_prod w)))%nat as Lk.
    { rewrite <- Eb, <- (pi_len _ _ _ _ _ I). apply nth_error_Some; congruence. }
    assert (k' < pb_published (pp_pub (du_prod w)))%nat as Lk'.
    { rewrite <- Eb, <- (pi_len _ _ _ _ _ I). apply nth_error_Some; congruence. }
    apply number_comp_inj in Nv as [_ Nv]; auto. rewrite (Un _ _ Lk' Lk Nv) in *.
    assert (x' = x) as -> by congruence. assert (s' = i) as -> by lia. reflexivity.
  - assert (nseg (pn_buf x) = 1%nat) as N1.
    { pose proof (pi_good _ _ _ _ _ I x Hx) as G. pose proof (good_names evs x W G) as Gn. destruct G as (Ebuf & Nd & _).
      assert (length (pn_buf x) <= SEG_SIZE)%nat as L by (rewrite Ebuf; apply One; auto; rewrite <- Ee; exact Gn).
      clear - L B0. pose proof (nseg_bounds (pn_buf x)) as (_ & _ & Hz). pose proof SEG_SIZE_pos.
      destruct (pn_buf x) as [|b0 bs]; [reflexivity|]. specialize (Hz ltac:(discriminate)). nia. }
    assert (i = s) as -> by lia. assert (i1 = s) as -> by lia. congruence.
Qed.

(** the answer to a hello interest *)
Lemma hello_answer P evs b o x ver : pinv K P evs b o -> In x P ->
  is_prefix (pc_sync K ++ [HELLO]) (append_version (pn_name x) ver) = true ->
  exists k c, point n (history evs) k /\ carries_ibf (pc_codec K) (pc_scheme K) c (k_iblt k) /\ hello_pub K k c x.
Proof.
  intros I Hx Pre. destruct (pi_good _ _ _ _ _ I x Hx) as (_ & _ & k & c & Pt & Hc & [H|H]); [eauto|]. exfalso.
  destruct H as (rn & bf & t & E & (c1 & c2 & c3 & c4 & tl & -> & _) & _). rewrite E in Pre. unfold append_version in Pre.
  rewrite <- !app_assoc in Pre. cbn [app] in Pre. rewrite is_prefix_snoc_differs in Pre; [discriminate|reflexivity].
Qed.
(** the answer to a sync interest *)
Lemma sync_answer P evs b o x ver c1 c2 c3 c4 : pinv K P evs b o -> In x P ->
  is_prefix (pc_sync K ++ [SYNC; c1; c2; c3; c4]) (append_version (pn_name x) ver) = true ->
  exists k c bf t, point n (history evs) k /\ carries_ibf (pc_codec K) (pc_scheme K) c (k_iblt k) /\
    pn_name x = (pc_sync K ++ [SYNC; c1; c2; c3; c4]) ++ [c] /\
    bloom_of_comps (pc_libm K) c1 c2 c3 = Ok bf /\
    initialize (pc_codec K) (pc_scheme K) (iblt_new (pc_n K)) c4 = (t, Ok tt) /\
    (forall nm, In nm (pn_names x) -> exists p v, nm = append_number p v /\ get_seq p k = Some v) /\
    complete_for K evs k bf t (pn_names x).
Proof.
  intros I Hx Pre. destruct (pi_good _ _ _ _ _ I x Hx) as (_ & _ & k & c & Pt & Hc & [H|H]).
  - exfalso. destruct H as [E _]. rewrite E in Pre. apply is_prefix_iff in Pre as (r & Pre).
    apply (f_equal (@length _)) in Pre. unfold append_version in Pre. rewrite !app_length in Pre. simpl in Pre. lia.
  - destruct H as (rn & bf & t & E & (d1 & d2 & d3 & d4 & tl & -> & _ & _ & B & T) & Z & V).
    assert ([c1; c2; c3; c4] = [d1; d2; d3; d4]) as [= -> -> -> ->].
    { rewrite E in Pre. apply is_prefix_iff in Pre as (r & Pre). unfold append_version in Pre.
      rewrite <- !app_assoc in Pre. apply app_inv_head in Pre. cbn [app] in Pre. injection Pre; intros; subst; reflexivity. }
    exists k, c, bf, t. repeat (split; [assumption|]). exact V.
Qed.
(** a Nack does not answer a hello interest *)
Lemma nack_hello rname bf t c : sync_request_for K rname rname bf t ->
  is_prefix (pc_sync K ++ [HELLO]) (rname ++ [c]) = false.
Proof.
  intros (c1 & c2 & c3 & c4 & tl & -> & _). rewrite <- app_assoc. apply is_prefix_snoc_differs. reflexivity.
Qed.
End Gather.
