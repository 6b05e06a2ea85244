(** How full-sync nodes answer interests and publish. *)
From Coq Require Import List NArith ZArith Bool Arith Lia.
From Verif Require Import Base BaseFacts Mon MonFacts Iblt SpecIblt IbltFacts HonestFacts Tlv TlvFacts State NMap NMapFacts
  Codec CodecFacts Store StoreFacts Producer SpecProducer ProducerFacts Properties_Producer
  Partial SpecPartial PartialFacts PartialSteps Full FullTrace SpecFull FullFacts FullSafe FullSteps FullData FullRuns.
Import ListNotations.
Local Open Scope N_scope.

Lemma marked_rest n s : f_core (marked n s) = f_core s /\ f_pub (marked n s) = f_pub s /\
  f_pending (marked n s) = f_pending s.
Proof. unfold marked. destruct (nm_find n (f_waiting s)); auto. Qed.
Lemma data_of_reply ds o : only_interests o -> data_of (map FoData ds ++ o) = ds.
Proof. intros H. rewrite data_of_app, data_of_data, only_interests_data, app_nil_r; auto. Qed.
Lemma start_eq K n s : exists s', start_waiting K n s = (s', [], Ok tt) /\ f_core s' = f_core s /\
  f_pub s' = f_pub s /\ f_pending s' = f_pending s.
Proof.
  unfold start_waiting. rewrite mbind_mod, schedule_eq. set (x := fset_waiting _ s). eexists. split; [reflexivity|].
  destruct (f_waiting x); auto. destruct (f_delay x); auto.
Qed.

(** a decodable interest *)
Lemma decodable_reply K m n t rcvd l d s : schemes_ok K -> uri_ok K -> core_ok m (f_core s) ->
  full_request K n t rcvd -> reply_from_store n (f_pub s) = None ->
  iblt_sub (fc_fuel K) (k_iblt (f_core s)) t = Ok d -> can_decode d = true ->
  exists s' o', fp_step K (FeInterest n l) s = (s', o', Ok tt) /\ f_core s' = f_core s /\
    match offer (f_core s) (negative d) (positive d) with
    | [] => o' = [] /\ f_pub s' = f_pub s
    | names => exists ds, answered K (f_now s) (f_pub s) (f_pub s') n names (fc_fresh K) ds /\
                 data_of o' = ds /\ f_pending s' = f_pending s
    end.
Proof.
  intros Sk Uk Ck Hq Hr Hd Hc. rewrite (step_request K n t rcvd) by auto.
  rewrite (finterest_request K n t rcvd) by auto. rewrite Hr, mbind_lift, Hd, Hc.
  destruct (request_names _ _ _ _ Hq) as [Hn N0].
  destruct (positive d) as [|h hs] eqn:Ep.
  - cbn [offer]. unfold on_decoded. rewrite Ep, mbind_get. destruct (negative d) as [|g gs].
    + rewrite mbind_mod. eexists _, _. split; [reflexivity|]. auto.
    + destruct (nm_find n (f_waiting s)).
      * eexists _, _. split; [reflexivity|]. auto.
      * destruct (start_eq K n s) as (s' & -> & A & B & _). eexists _, _. split; [reflexivity|]. auto.
  - rewrite <- Ep. rewrite (decoded_positive K m) by (auto; congruence).
    destruct (offer _ _ _) as [|y ys].
    + eexists _, _. split; [reflexivity|]. auto.
    + destruct (data_spec K n (y :: ys) (fc_fresh K) s Sk N0) as (ds & s2 & o2 & E2 & A2 & F2 & O2).
      unfold mbind. rewrite E2, mark_eq. rewrite app_nil_r. destruct (marked_rest n s2) as (M1 & M2 & M3).
      exists (marked n s2), (map FoData ds ++ o2). split; [reflexivity|]. split; [rewrite M1; apply F2|].
      exists ds. split; [rewrite M2; exact A2|]. split; [apply data_of_reply; auto|]. rewrite M3. apply F2.
Qed.

Lemma entire_live k : entire_state k = live k.
Proof. reflexivity. Qed.
(** an undecodable interest *)
Lemma undecodable_reply K n t rcvd l d s : schemes_ok K ->
  full_request K n t rcvd -> reply_from_store n (f_pub s) = None ->
  iblt_sub (fc_fuel K) (k_iblt (f_core s)) t = Ok d -> can_decode d = false ->
  exists s' o', fp_step K (FeInterest n l) s = (s', o', Ok tt) /\ f_core s' = f_core s /\
    ((k_count (f_core s) < rcvd \/ (k_count (f_core s) = rcvd /\ positive d = [] /\ negative d <> []) \/
      live (f_core s) = [] -> o' = [] /\ f_pub s' = f_pub s /\ f_pending s' = f_pending s) /\
     (rcvd <= k_count (f_core s) -> ~ (k_count (f_core s) = rcvd /\ positive d = [] /\ negative d <> []) ->
      live (f_core s) <> [] ->
      exists ds, answered K (f_now s) (f_pub s) (f_pub s') n (live (f_core s)) FULL_STATE_FRESH ds /\
        data_of o' = ds /\ f_pending s' = nm_erase n (f_pending s))).
Proof.
  intros Sk Hq Hr Hd Hc. rewrite (step_request K n t rcvd) by auto.
  rewrite (finterest_request K n t rcvd) by auto. rewrite Hr, mbind_lift, Hd, Hc.
  destruct (request_names _ _ _ _ Hq) as [Hn N0].
  unfold on_undecodable. rewrite mbind_get. destruct (N.ltb_spec (k_count (f_core s)) rcvd) as [Lt|Ge].
  - destruct (nm_find n (f_waiting s)).
    + eexists _, _. split; [reflexivity|]. split; auto. split; auto. lia.
    + destruct (start_eq K n s) as (s' & -> & A & B & C). eexists _, _. split; [reflexivity|].
      split; auto. split; auto. lia.
  - assert ((k_count (f_core s) =? rcvd) && Nat.eqb (length (positive d)) 0 && Nat.ltb 0 (length (negative d)) = true
      <-> (k_count (f_core s) = rcvd /\ positive d = [] /\ negative d <> [])) as B.
    { rewrite !andb_true_iff, N.eqb_eq, Nat.eqb_eq, Nat.ltb_lt, length_zero_iff_nil.
      assert ((0 < length (negative d))%nat <-> negative d <> []) as -> by (destruct (negative d); simpl; split; [lia|congruence|discriminate|lia]).
      tauto. }
    destruct (_ && _ && _) eqn:Q.
    + eexists _, _. split; [reflexivity|]. split; auto. split; auto. intros _ X. exfalso. tauto.
    + rewrite entire_live. destruct (marked_rest n s) as (M1 & M2 & M3). destruct (live (f_core s)) as [|y ys] eqn:El.
      * rewrite mbind_ret, mark_eq. eexists _, _. split; [reflexivity|]. split; auto. split; auto.
        intros _ _ X. elim X. reflexivity.
      * destruct (data_spec K n (y :: ys) FULL_STATE_FRESH s Sk N0) as (ds & s2 & o2 & E2 & A2 & F2 & O2).
        rewrite mbind_assoc. unfold mbind at 1. rewrite E2. unfold delete_pending. rewrite mbind_mod, mark_eq, app_nil_r.
        eexists _, _. split; [reflexivity|].
        destruct (marked_rest n (fset_pending (nm_erase n (f_pending s2)) s2)) as (M1' & M2' & M3').
        split; [rewrite M1'; apply F2|]. split.
        -- intros [X|[X|X]]; [lia|apply B in X; congruence|discriminate].
        -- intros _ _ _. exists ds. split; [rewrite M2'; exact A2|]. split; [apply data_of_reply; auto|].
           rewrite M3'. simpl. rewrite (fr_pending _ _ F2). reflexivity.
Qed.

(** ** Publishing *)
Lemma lookup_In b hs nm : In nm (lookup_names b hs) <-> exists h, In h hs /\ bm_left h b = Some nm.
Proof.
  induction hs as [|h hs IH]; simpl.
  - split; [contradiction|intros (h & [] & _)].
  - destruct (bm_left h b) as [x|] eqn:E; simpl; rewrite IH; split.
    + intros [<-|(g & A & B)]; eauto.
    + intros (g & [<-|A] & B); [left; congruence|right; eauto].
    + intros (g & A & B); eauto.
    + intros (g & [<-|A] & B); [congruence|eauto].
Qed.
Lemma satisfy_In b u hs nm : In nm (satisfy_content b u hs) <-> nm = u \/ In nm (lookup_names b hs).
Proof.
  unfold satisfy_content. destruct (existsb (name_eqb u) (lookup_names b hs)) eqn:E.
  - apply existsb_exists in E as (x & Hx & E). apply name_eqb_eq in E. subst x.
    split; auto. intros [->|H]; auto.
  - rewrite in_app_iff. simpl. split; [intros [H|[H|[]]]; auto|intros [->|H]; auto].
Qed.
Lemma lookup_NoDup b hs : NoDup hs -> (forall h nm, bm_left h b = Some nm -> h = name_hash nm) -> NoDup (lookup_names b hs).
Proof.
  intros Nd Hb. induction Nd as [|h hs Hh Nd IH]; cbn [lookup_names]; [constructor|].
  destruct (bm_left h b) as [nm|] eqn:E; [|exact IH]. constructor; [|exact IH].
  intros X. apply lookup_In in X as (g & Hg & Eg). apply Hh. rewrite (Hb _ _ E), <- (Hb _ _ Eg). exact Hg.
Qed.
Lemma satisfy_NoDup b u hs : NoDup hs -> (forall h nm, bm_left h b = Some nm -> h = name_hash nm) -> NoDup (satisfy_content b u hs).
Proof.
  intros Nd Hb. pose proof (lookup_NoDup b hs Nd Hb) as Nl. unfold satisfy_content.
  destruct (existsb (name_eqb u) (lookup_names b hs)) eqn:E; [exact Nl|].
  assert (~ In u (lookup_names b hs)) as X.
  { intros X. assert (existsb (name_eqb u) (lookup_names b hs) = true); [|congruence]. apply existsb_exists. exists u. split; [exact X|apply name_eqb_refl]. }
  clear E. revert Nl X. generalize (lookup_names b hs). intros l. induction l as [|y l IH]; intros Nl X.
  - constructor; [intros []|constructor].
  - inversion Nl; subst. cbn [app]. constructor; [|apply IH; auto; intros Y; apply X; right; exact Y].
    rewrite in_app_iff. intros [Y|[->|[]]]; [contradiction|]. apply X. left. reflexivity.
Qed.
Definition content_for (K : fcfg) (k : core) (u : name) (q : nmap fentry) (key : name) (names : list name) : Prop :=
  exists e d, nm_find key q = Some e /\ iblt_sub (fc_fuel K) (k_iblt k) (fe_iblt e) = Ok d /\
    names = satisfy_content (k_bimap k) u (positive d).
Lemma answers_ext K now (c c' : name -> list name -> Prop) keys : (forall k n, In k keys -> c k n -> c' k n) -> forall p0 p1 l,
  answers K now c p0 keys p1 l -> answers K now c' p0 keys p1 l.
Proof.
  induction keys as [|k keys IH]; intros H p0 p1 l; simpl; auto.
  intros (names & pm & lm & l' & A & B & C & D). exists names, pm, lm, l'. split; [apply H; simpl; auto|]. split; auto.
  split; auto. apply IH; auto. intros; apply H; simpl; auto.
Qed.
Lemma fsatisfy_spec K u keys : schemes_ok K -> forall s, NoDup keys -> nm_sorted (f_pending s) ->
  (forall k, In k keys -> k <> [] /\ exists e d, nm_find k (f_pending s) = Some e /\
     iblt_sub (fc_fuel K) (k_iblt (f_core s)) (fe_iblt e) = Ok d) ->
  exists s' o, fsatisfy K u keys s = (s', o, Ok tt) /\
    answers K (f_now s) (content_for K (f_core s) u (f_pending s)) (f_pub s) keys (f_pub s') (data_of o) /\
    f_core s' = f_core s /\ ops_of o = [] /\
    (forall k, nm_find k (f_pending s') = if existsb (name_eqb k) keys then None else nm_find k (f_pending s)).
Proof.
  intros Sk. induction keys as [|k keys IH]; intros s Nd So Hk.
  - exists s, []. split; [reflexivity|]. simpl. auto.
  - inversion Nd as [|x y Hx Nd']; subst. destruct (Hk k (or_introl eq_refl)) as (K0 & e & d & Hf & Hd).
    cbn [fsatisfy]. unfold fsatisfy_one. rewrite mbind_assoc, mbind_get, Hf.
    rewrite mbind_assoc, mbind_lift, Hd.
    set (names := satisfy_content (k_bimap (f_core s)) u (positive d)).
    destruct (data_spec K k names (fc_fresh K) s Sk K0) as (ds & s1 & o1 & E1 & A1 & F1 & O1).
    rewrite mbind_assoc. unfold mbind at 1. rewrite E1. unfold delete_pending. rewrite mbind_mod.
    set (s2 := fset_pending (nm_erase k (f_pending s1)) s1).
    assert (f_pending s2 = nm_erase k (f_pending s)) as P2 by (simpl; rewrite (fr_pending _ _ F1); reflexivity).
    assert (f_core s2 = f_core s) as C2 by apply F1.
    assert (nm_sorted (f_pending s2)) as So2 by (rewrite P2; apply nm_erase_sorted; auto).
    assert (forall j, j <> k -> nm_find j (f_pending s2) = nm_find j (f_pending s)) as J2
      by (intros j Hj; rewrite P2; apply nm_find_erase_other; auto).
    destruct (IH s2 Nd' So2) as (s3 & o3 & E3 & A3 & C3 & Q3 & P3).
    { intros j Hj. destruct (Hk j (or_intror Hj)) as (J0 & e' & d' & Hf' & Hd'). split; auto.
      exists e', d'. rewrite J2, C2; auto. intros ->. contradiction. }
    rewrite E3. exists s3, ((map FoData ds ++ o1) ++ o3). split; [reflexivity|].
    split; [|split; [congruence|split]].
    + simpl. exists names, (f_pub s1), ds, (data_of o3). split; [exists e, d; auto|]. split; auto.
      split; [|rewrite data_of_app, data_of_reply; auto].
      change (f_now s2) with (f_now s1) in A3. rewrite (fr_now _ _ F1), C2 in A3.
      eapply answers_ext; [|exact A3]. intros j nm Hj (e' & d' & X1 & X2 & X3).
      exists e', d'. rewrite <- (J2 j); auto. intros ->. contradiction.
    + rewrite !ops_of_app, ops_of_data, (only_interests_ops _ O1), Q3. reflexivity.
    + intros j. rewrite P3. cbn [existsb]. destruct (name_eqb j k) eqn:E.
      * apply name_eqb_eq in E. subst j. cbn [orb]. rewrite P2, nm_find_erase_same; auto.
        destruct (existsb (name_eqb k) keys); reflexivity.
      * cbn [orb]. rewrite J2; auto. intros ->. rewrite name_eqb_refl in E. discriminate.
Qed.
Lemma nm_all_none {A} (q : nmap A) : (forall k, nm_find k q = None) -> q = [].
Proof.
  destruct q as [|[k v] q]; auto. intros H. specialize (H k). simpl in H. rewrite name_eqb_refl in H. discriminate.
Qed.
Lemma publish_step K s p q cur k' : schemes_ok K -> fp_ok K s -> get_seq p (f_core s) = Some cur ->
  cstep (f_core s) (CPublish p q) = Ok k' ->
  (forall key e, nm_find key (f_pending s) = Some e ->
     exists d, iblt_sub (fc_fuel K) (k_iblt k') (fe_iblt e) = Ok d) ->
  exists s' o, fp_step K (FeApi (APublish p q)) s = (s', FoOp (CPublish p q) :: o, Ok tt) /\
    f_core s' = k' /\ f_pending s' = [] /\ ops_of o = [] /\
    answers K (f_now s) (content_for K k' (append_number p (publish_seq cur q)) (f_pending s))
      (f_pub s) (nm_keys (f_pending s)) (f_pub s') (data_of o).
Proof.
  intros Sk Ok_ Hp Hk Hd. cbn [fp_step api_call]. unfold fp_publish_name. rewrite mbind_get, Hp.
  unfold mbind at 1. unfold fp_op. rewrite mbind_get, mbind_lift, Hk, mbind_mod. unfold memit at 1.
  rewrite mbind_mod. set (s1 := fset_wait false (fset_core k' s)).
  destruct (fsatisfy_spec K (append_number p (publish_seq cur q)) (nm_keys (f_pending s)) Sk s1) as (s2 & o2 & E & A & C & Q & P).
  - apply nm_sorted_NoDup. apply Ok_.
  - apply Ok_.
  - intros key Hin. apply nm_In_keys in Hin as [e He]. destruct (fo_pending _ _ Ok_ key e He) as [rcvd Hn]. split.
    + eapply names_ibf_nonempty; eauto.
    + destruct (Hd key e He) as [d D]. exists e, d. auto.
  - rewrite E. exists s2, o2. split; [reflexivity|]. split; auto. split.
    + apply nm_all_none. intros k. rewrite P. destruct (existsb _ _) eqn:X; auto. simpl.
      destruct (nm_find k (f_pending s)) as [e|] eqn:F; auto. exfalso.
      assert (existsb (name_eqb k) (nm_keys (f_pending s)) = true) as Y; [|congruence].
      apply existsb_exists. exists k. split; [apply nm_In_keys; eauto|apply name_eqb_refl].
    + split; auto.
Qed.

(** ** Reports come from the received names *)
Lemma take_from names : forall s s' o l, take_updates names s = (s', o, Ok l) ->
  forall m, In m l -> exists x, In (mi_prefix m ++ [x]) names /\ to_number x = Ok (mi_high m).
Proof.
  induction names as [|c names IH]; intros s s' o l; cbn [take_updates].
  - intros [= <- <- <-] m [].
  - rewrite mbind_lift. destruct (name_get_minus c 1) as [x|e|u|] eqn:Ex; try discriminate.
    rewrite mbind_lift. destruct (to_number x) as [v|e|u|] eqn:Ev; try discriminate. cbv zeta. rewrite mbind_get.
    assert (c = name_prefix_back c 1 ++ [x]) as Hc.
    { destruct c as [|y c _] using rev_ind; [discriminate|].
      rewrite name_get_minus_last in Ex. injection Ex as ->. unfold name_prefix_back.
      rewrite app_length, Nat.add_sub, firstn_app, firstn_all, Nat.sub_diag. cbn [firstn].
      rewrite app_nil_r. reflexivity. }
    assert (forall s1 s2 o1 l1, take_updates names s1 = (s2, o1, Ok l1) -> forall m, In m l1 ->
      exists x, In (mi_prefix m ++ [x]) (c :: names) /\ to_number x = Ok (mi_high m)) as Tail.
    { intros s1 s2 o1 l1 T m Hm. destruct (IH _ _ _ _ T m Hm) as (y & A & B). exists y. split; auto. right. auto. }
    destruct (match get_seq _ _ with None => true | Some cur => cur <? v end); [|apply Tail].
    unfold mbind. destruct (prefix_seq _ s) as [[s1 o1] [cur|e|u|]]; try discriminate.
    destruct (fp_op _ s1) as [[s2 o2] [[]|e|u|]]; try discriminate.
    destruct (take_updates names s2) as [[s3 o3] [l3|e|u|]] eqn:T; try discriminate.
    intros [= <- <- <-] m [<-|Hm]; [|eapply Tail; eauto]. exists x. cbn [mi_prefix mi_high]. split; auto.
    left. exact Hc.
Qed.
Lemma report_from K i buf script s s' o r l : pfx_ok (k_prefixes (f_core s)) ->
  fp_step K (FeContent i buf script) s = (s', o, r) -> In (FoUpdate l) o ->
  exists names, content_names K buf names /\
    forall m, In m l -> exists x, In (mi_prefix m ++ [x]) names /\ to_number x = Ok (mi_high m).
Proof.
  intros Hp E Hl. cbn [fp_step] in E. rewrite mbind_get in E.
  destruct (fetch_of i (f_live s)) as [n|]; [|injection E as <- <- <-; contradiction].
  rewrite mbind_mod in E. set (s0 := fset_live _ s) in *.
  unfold on_sync_data, delete_pending in E. rewrite mbind_mod in E. set (s1 := fset_pending _ s0) in *.
  destruct (content_cases (fc_codec K) (fc_cscheme K) buf) as [[names C]|[e C]]; rewrite C in E;
    [|injection E as <- <- <-; contradiction].
  exists names. split; [exact C|]. intros m Hm.
  unfold mbind at 1 in E. destruct (take_updates names s1) as [[s2 o2] r2] eqn:T.
  destruct (take_inv names s1 s2 o2 r2 Hp T) as (F & O & P & S).
  assert (~ In (FoUpdate l) o2) as No.
  { intros X. apply only_ops_nr in O. unfold no_report in O. rewrite Forall_forall in O. exact (O _ X l eq_refl). }
  destruct r2 as [l2|e|u|]; try (injection E as <- <- <-; contradiction).
  apply (take_from _ _ _ _ _ T m). destruct l2 as [|m2 l2].
  - exfalso. unfold draw in E. rewrite mbind_mod, mbind_assoc, mbind_get, mbind_assoc, mbind_mod, mbind_ret in E.
    unfold mmod in E. injection E as <- <- <-. rewrite app_nil_r in Hl. contradiction.
  - rewrite mbind_emit in E.
    set (rest := (api_calls K script ;; mlet j <- draw K;
        mmod (fun s => fset_wait false (fset_sched (Some (f_now s + j, KSend)) s)) ;; process_waiting K)) in *.
    injection E as <- <- <-.
    assert (no_report (outs (rest s2))) as Nr
      by (apply (tr_after K (fun _ => True) nr_rel (nr_closed K _)); [intros; exact I|apply Forall_forall; intros; exact I]).
    apply in_app_iff in Hl as [Hl|[Hl|Hl]]; [contradiction|congruence|].
    unfold no_report in Nr. rewrite Forall_forall in Nr. destruct (Nr _ Hl l eq_refl).
Qed.
