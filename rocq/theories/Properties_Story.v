(** Property theorems about what the applications of a group of full-sync nodes get to know (C126). *)
From Coq Require Import List NArith ZArith Bool Arith Lia Sorted.
From Coq.Strings Require Import Byte.
From Verif Require Import Base Mon MonFacts Iblt BaseFacts Tlv State NMap TlvFacts NMapFacts Codec CodecFacts Store StoreFacts
  Producer SpecProducer ProducerFacts Properties_Producer Partial SpecPartial Properties_Partial
  Full FullTrace SpecFull FullFacts FullData FullSafe FullRuns Properties_Full SpecExchange ExchangeFacts Properties_Exchange SpecGroup GroupFacts Properties_Group
  SpecStory.
Import ListNotations.
Local Open Scope N_scope.

Lemma gapless_app l : forall a b l' c, gapless a l b -> gapless b l' c -> gapless a (l ++ l') c.
Proof.
  induction l as [|[x y] l IH]; intros a b l' c; cbn [gapless app]; [intros ->; auto|].
  intros (H1 & H2 & H3) H. split; [exact H1|]. split; [exact H2|]. eapply IH; eauto.
Qed.
Lemma gapless_chain p l : forall f g, report_chain f l g -> gapless (seq0 (f p)) (ranges_in p l) (seq0 (g p)).
Proof.
  induction l as [|m l IH]; intros f g; cbn [report_chain].
  - intros H. rewrite H. reflexivity.
  - intros (H1 & H2 & H3). apply IH in H3. unfold ranges_in in *. cbn [filter]. destruct (name_eqb p (mi_prefix m)) eqn:Q.
    + apply name_eqb_eq in Q. subst p. cbn [seq0] in H3. cbn [map gapless]. split; [exact H1|]. split; [|exact H3].
      destruct (f (mi_prefix m)); cbn [seq0]; lia.
    + exact H3.
Qed.
(** ** The walk over what a node shows *)
Lemma story_app p a : forall ops b, story p ops (a ++ b) = story p ops a ++ story p (ops ++ ops_of a) b.
Proof.
  induction a as [|x a IH]; intros ops b; cbn [story app ops_of]; [rewrite app_nil_r; reflexivity|].
  destruct x; cbn [ops_of]; rewrite ?IH, <- ?app_assoc; reflexivity.
Qed.
Lemma story_silent p o : forall ops, no_report o -> (forall q v, ~ In (CPublish q v) (ops_of o)) -> story p ops o = [].
Proof.
  induction o as [|x o IH]; intros ops Nr Np; [reflexivity|]. inversion Nr as [|? ? Hx Ho]; subst. destruct x; cbn [story]; cbn [ops_of] in Np; auto.
  - destruct (Hx l eq_refl).
  - rewrite (IH _ Ho (fun q v H => Np q v (or_intror H))). destruct o0 as [q|q|q v|q v]; try reflexivity.
    destruct (Np q v). left. reflexivity.
Qed.
Definition own_op (c : cop) : Prop := (exists q, c = CAdd q) \/ (exists q, c = CRemove q) \/ exists q v, c = CPublish q v.
Lemma story_own p o : forall ops, no_report o -> Forall own_op (ops_of o) -> no_removal (ops_of o) ->
  gapless (seq0 (seq_after p ops)) (story p ops o) (seq0 (seq_after p (ops ++ ops_of o))).
Proof.
  induction o as [|x o IH]; intros ops Nr Fo Nm; [rewrite app_nil_r; reflexivity|].
  inversion Nr as [|? ? Hx Ho]; subst. destruct x as [d|n t|l|c]; cbn [story ops_of] in *; try (apply IH; auto; fail).
  - destruct (Hx l eq_refl).
  - inversion Fo as [|? ? Fc Fr]; subst.
    assert (no_removal (ops_of o)) as Nm' by (intros q H; apply (Nm q); right; exact H).
    specialize (IH (ops ++ [c]) Ho Fr Nm'). rewrite <- app_assoc in IH. cbn [app] in IH.
    assert (seq0 (seq_after p ops) <= seq0 (seq_after p (ops ++ [c]))) as Mo.
    { apply seq_after_mono. intros q [E|[]]. apply (Nm q). left. exact E. }
    eapply gapless_app; [|exact IH]. destruct Fc as [[q ->]|[[q ->]|[q [v ->]]]].
    + cbn [gapless]. rewrite (seq_after_app p ops). cbn [fold_left]. rewrite seq_step_add. destruct (name_eqb p q); [|reflexivity].
      destruct (seq_after p ops); reflexivity.
    + destruct (Nm q). left. reflexivity.
    + destruct (name_eqb p q) eqn:Q; cbn [andb].
      * destruct (seq0 (seq_after p ops) <? seq0 (seq_after p (ops ++ [CPublish q v]))) eqn:L; cbn [gapless].
        -- apply N.ltb_lt in L. split; [reflexivity|]. split; [lia|reflexivity].
        -- apply N.ltb_ge in L. lia.
      * cbn [gapless]. rewrite (seq_after_app p ops). cbn [fold_left seq_step]. rewrite Q. destruct v; reflexivity.
Qed.
(** ** One node *)
Lemma first_report a b c d (x y : list missing) : no_report a -> no_report c -> a ++ FoUpdate x :: b = c ++ FoUpdate y :: d -> a = c.
Proof.
  revert c. induction a as [|u a IH]; intros [|v c] Na Nc E; [reflexivity|..].
  - injection E as <- _. inversion Nc as [|? ? H _]; subst. destruct (H x eq_refl).
  - injection E as -> _. inversion Na as [|? ? H _]; subst. destruct (H y eq_refl).
  - injection E as -> E. inversion Na; inversion Nc; subst. f_equal. apply IH; auto.
Qed.
Lemma before_report K i buf script s pre l post : pfx_ok (k_prefixes (f_core s)) ->
  outs (fp_step K (FeContent i buf script) s) = pre ++ FoUpdate l :: post -> no_report pre ->
  forall q v, ~ In (CPublish q v) (ops_of pre).
Proof.
  intros Hp E Np q v Hin. destruct (step_content_cases K i buf script s) as [X|(n & F & X)]; rewrite X in E.
  { destruct pre; discriminate. }
  unfold on_sync_data, delete_pending in E. rewrite mbind_mod in E. set (s0 := fset_pending _ _) in E.
  destruct (content_cases (fc_codec K) (fc_cscheme K) buf) as [[names Ec]|[er Ec]]; rewrite Ec in E; [|destruct pre; discriminate].
  pose proof (take_from names s0) as T. unfold mbind at 1 in E. destruct (take_updates names s0) as [[s1 o1] r1] eqn:Et.
  assert (pfx_ok (k_prefixes (f_core s0))) as Hp0 by exact Hp.
  destruct (take_inv _ _ _ _ _ Hp0 Et) as (_ & O1 & _). apply only_ops_nr in O1. unfold outs in T. cbn [fst snd] in T.
  assert (~ In (FoUpdate l) o1) as N1 by (intros H; unfold no_report in O1; rewrite Forall_forall in O1; exact (O1 _ H l eq_refl)).
  destruct r1 as [l1|er|u|]; try (unfold outs in E; cbn [fst snd] in E; apply N1; rewrite E; apply in_elt).
  destruct l1 as [|m1 l1].
  - rewrite mbind_mod in E. unfold draw in E. rewrite mbind_assoc, mbind_get, mbind_assoc, mbind_mod, mbind_ret in E.
    unfold mmod, outs in E. cbn [fst snd] in E. rewrite app_nil_r in E. apply N1. rewrite E. apply in_elt.
  - rewrite mbind_emit in E. set (z := (api_calls K script ;; _) s1) in E. destruct z as [[s2 o2] r2] eqn:Z. unfold outs in E. cbn [fst snd app] in E.
    apply first_report in E; auto. subst pre. rewrite Forall_forall in T. exact (T _ Hin).
Qed.
Lemma story_step K sys evs s1 o1 e p : reaches K sys evs s1 o1 -> fev_wf e -> no_removal (ops_of (outs (fp_step K e s1))) ->
  res (fp_step K e s1) = Ok tt \/ ((forall i buf script, e <> FeContent i buf script) /\ exists x, res (fp_step K e s1) = Throw x) ->
  gapless (seq0 (seq_after p (ops_of o1))) (story p (ops_of o1) (outs (fp_step K e s1)))
    (seq0 (seq_after p (ops_of o1 ++ ops_of (outs (fp_step K e s1))))).
Proof.
  intros R1 We Nr2 Hr.
  assert (reaches K sys (evs ++ [e]) (st (fp_step K e s1)) (o1 ++ outs (fp_step K e s1))) as R.
  { apply reaches_snoc; auto; destruct Hr as [->|[_ [x ->]]]; discriminate. }
  pose proof (reaches_pfx _ _ _ _ _ R1) as Hp.
  assert (forall a : api, own_op (api_op a)) as Api by (intros [q|q|q v]; unfold own_op; cbn; eauto 6).
  assert ((forall i buf script, e <> FeContent i buf script) ->
    gapless (seq0 (seq_after p (ops_of o1))) (story p (ops_of o1) (outs (fp_step K e s1)))
      (seq0 (seq_after p (ops_of o1 ++ ops_of (outs (fp_step K e s1)))))) as Other.
  { intros He. destruct (step_other_inv K e s1 He) as [Nx F]. apply story_own; auto. eapply Forall_impl; [|exact F].
    intros x [H|[q ->]]; [|left; eauto]. destruct e; simpl in H; try contradiction.
    - destruct H as [<-|[]]. apply Api.
    - exfalso. eapply He. reflexivity. }
  destruct e as [a|m l|i buf script|i face|i timeout|dt|t| | |key|i]; try (apply Other; discriminate). clear Other.
  assert (res (fp_step K (FeContent i buf script) s1) = Ok tt) as Hok by (destruct Hr as [Hr|[Hr _]]; [exact Hr|destruct (Hr _ _ _ eq_refl)]).
  pose proof (fun pre l post => before_report K i buf script s1 pre l post Hp) as Bf.
  destruct (fp_step K (FeContent i buf script) s1) as [[s2 o2] r2] eqn:E. simpl in Hok. subst r2.
  destruct (step_content_inv _ _ _ _ _ _ _ _ Hp E) as [[-> _]|[[_ O]|(pre & l & post & k & -> & Opre & Npost & Ck & Nl & Ch & _ & Sc)]].
  + cbn [outs fst snd story ops_of]. rewrite app_nil_r. reflexivity.
  + congruence.
  + unfold outs in *. cbn [fst snd] in *. specialize (Bf pre l post eq_refl (only_ops_nr _ Opre)).
    rewrite ops_of_app in Nr2 |- *. cbn [ops_of] in Nr2 |- *. apply no_removal_app in Nr2 as [Np Nq].
    assert (get_seq p k = seq_after p (ops_of o1 ++ ops_of pre)) as Gk.
    { rewrite seq_after_app, <- (reaches_seq _ _ _ _ _ p R1).
      apply get_seq_run; auto. pose proof (reaches_core _ _ _ _ _ R) as [W _].
      unfold st in W. simpl in W.
      rewrite ops_of_app in W. apply Forall_app in W as [_ W]. cbn [ops_of] in W.
      rewrite ops_of_app in W. apply Forall_app in W. apply W. }
    rewrite story_app, (story_silent p pre) by (auto; apply only_ops_nr; auto). cbn [app story].
    pose proof (gapless_chain p l _ _ Ch) as G. cbv beta in G. rewrite (reaches_seq _ _ _ _ _ p R1), Gk in G.
    eapply gapless_app; [exact G|]. rewrite app_assoc. apply story_own; auto. eapply Forall_impl; [|exact Sc].
    intros x [H|[q ->]]; [|left; eauto]. apply in_map_iff in H as (a & <- & _). apply Api.
Qed.
Lemma story_run K sys evs s o p : reaches K sys evs s o -> no_removal (ops_of o) -> schemes_ok K -> uri_ok K ->
  (forall i buf script, In (FeContent i buf script) evs -> good_content K buf) ->
  gapless 0 (story p [] o) (seq0 (seq_after p (ops_of o))).
Proof.
  intros R Nr Sk Uk Hg. revert s o R Nr. induction evs as [|e evs IH] using rev_ind; intros s o R Nr.
  - apply reaches_nil in R as (m & _ & _ & ->). reflexivity.
  - pose proof R as R'. apply reaches_inv in R' as (s1 & o1 & R1 & We & -> & -> & Hr).
    rewrite ops_of_app in Nr |- *. apply no_removal_app in Nr as [Nr1 Nr2]. rewrite story_app.
    eapply gapless_app; [apply (IH ltac:(intros; eapply Hg; apply in_or_app; eauto) _ _ R1 Nr1)|]. clear IH. cbn [app].
    apply (story_step K sys evs s1 o1 e p R1 We Nr2). destruct Hr as [Hr|[x Hr]]; [left; exact Hr|right]. split; [|eauto].
    intros i buf script ->. assert (tame (res (fp_step K (FeContent i buf script) s1))) as T.
    { apply (step_tame K Sk Uk); [eapply reaches_ok; eauto|]. simpl. intros l0 Hl0.
      eapply Hg; [apply in_or_app; right; left; reflexivity|exact Hl0]. }
    rewrite Hr in T. exact T.
Qed.
(** ** The group *)
Section Group.
Variable K : nat -> fcfg.
Variable m : nat.
Hypothesis ok : group_ok K m.
Lemma soup_good g i j buf n : (forall i, (i < m)%nat -> node_ok K m g i) ->
  (forall i, (i < m)%nat -> all_sendable (K i) (ops_of (sn_out (g i)))) -> unmixed K m g -> (i < m)%nat ->
  fetch_of j (f_live (sn_state (g i))) = Some n -> assembled (soup m g) n buf -> good_content (K i) buf.
Proof.
  intros G Sd Un Hi Ff De names Cn.
  destruct (finite_choice K m (fun j P => ninv (K j) P (sn_out (g j)) (sn_state (g j))) []) as (P & HP).
  { intros j0 Hj0. apply (G j0 Hj0). }
  destruct (gather K m (go_same _ _ ok) P (soup m g) i n buf Hi) as (j0 & y & Hj0 & Hy & ->); auto.
  - eapply (no_fetch _ _ _ _ (G i Hi)). apply fetch_of_In. exact Ff.
  - intros d (j1 & Hj1 & Hd). exists j1. split; auto. apply (ni_data _ _ _ _ (HP j1 Hj1)). apply data_of_In. auto.
  - intros j1 y Hj1 Hy. destruct (ni_pub _ _ _ _ (HP j1 Hj1) y Hy) as (Co & Nd & Ca).
    destruct (Sd j1 Hj1 _ Nd Ca) as [_ L]. apply L. auto.
  - destruct Un as [[Un1 Un2]|Un].
    { right. split.
      - intros j1 a Hj1. rewrite (ni_len _ _ _ _ (HP j1 Hj1)). apply Un1; auto.
      - intros j1 j2 a b Hj1 Hj2. rewrite (ni_len _ _ _ _ (HP j1 Hj1)), (ni_len _ _ _ _ (HP j2 Hj2)). apply Un2; auto. }
    left. intros j1 y Hj1 Hy.
    destruct (ni_pub _ _ _ _ (HP j1 Hj1) y Hy) as (Co & Nd & Ca). pose proof (Un j1 Hj1 _ Nd Ca _ Co) as L.
    pose proof (nseg_bounds (pn_buf y)) as (B0 & _ & Hz). pose proof SEG_SIZE_pos.
    destruct (pn_buf y) as [|b bs]; [reflexivity|]. assert (b :: bs <> []) as Hne by discriminate. specialize (Hz Hne).
    assert (nseg (b :: bs) - 1 = 0)%nat; [|lia]. nia.
  - destruct (ni_pub _ _ _ _ (HP j0 Hj0) y Hy) as (Co & Nd & Ca). destruct (Sd j0 Hj0 _ Nd Ca) as [Wf _].
    destruct (go_same _ _ ok j0 i Hj0 Hi) as (_ & _ & _ & G4 & G5).
    unfold content_names in Cn. rewrite <- G4, <- G5, (decompress_compress _ _ _ _ (go_lossless _ _ ok j0 Hj0) Co) in Cn.
    assert (state_of_buffer (encode_names (pn_names y)) = Ok (pn_names y)) as Rt by (apply state_roundtrip; auto).
    cbn [obind] in Cn. rewrite Rt in Cn. injection Cn as <-. apply Forall_forall. intros nm Hn.
    destruct (carried_origin K m g j0 _ Hj0 (G j0 Hj0) (Ca _ Hn)) as (p' & v' & -> & Lv & _).
    exists p', (number_comp TYPE_GENERIC v'). split; [reflexivity|]. exists v'. apply to_number_number. exact Lv.
Qed.
Lemma group_reaches g0 g i : SpecGroup.started K m g0 -> group_run K m g0 g ->
  (forall i, (i < m)%nat -> all_sendable (K i) (ops_of (sn_out (g i)))) -> unmixed K m g -> (i < m)%nat ->
  exists sys evs, reaches (K i) sys evs (sn_state (g i)) (sn_out (g i)) /\
    forall j buf script, In (FeContent j buf script) evs -> good_content (K i) buf.
Proof.
  intros S R. induction R as [g|g g1 g2 R IH St]; intros Sd Un Hi.
  - destruct (S i Hi) as (sys & Re). exists sys, []. split; [exact Re|intros j buf script []].
  - pose proof (extends_step _ _ _ _ St) as X.
    assert (unmixed K m g1) as Un1 by (apply (unmixed_ext K m g1 g2); auto).
    assert (forall i, (i < m)%nat -> all_sendable (K i) (ops_of (sn_out (g1 i)))) as Sd1.
    { intros i0 Hi0. apply (sendable_ext K m g1 g2); auto. }
    destruct (IH S Sd1 Un1 Hi) as (sys & evs & Re & Gd). pose proof (group_run_ok K m ok g g1 S R Sd1 Un1) as No.
    destruct St as [i0 e s o r g' Hi0 We De Es Hr E1 E2]. destruct (Nat.eq_dec i i0) as [<-|Ne].
    2:{ exists sys, evs. rewrite E2 by auto. auto. }
    assert (forall c, reaches (K i) sys (evs ++ [e]) (sn_state (g' i)) (sn_out (g' i)) -> c = e ->
      (forall j buf script, c = FeContent j buf script -> good_content (K i) buf) ->
      exists sys evs, reaches (K i) sys evs (sn_state (g' i)) (sn_out (g' i)) /\
        forall j buf script, In (FeContent j buf script) evs -> good_content (K i) buf) as Fin.
    { intros c Rc -> Hc. exists sys, (evs ++ [e]). split; [exact Rc|]. intros j buf script H.
      apply in_app_or in H as [H|[H|[]]]; eauto. }
    assert (reaches (K i) sys (evs ++ [e]) (sn_state (g' i)) (sn_out (g' i))) as Rn.
    { pose proof (reaches_snoc (K i) sys evs e _ _ Re We) as Rs. rewrite Es in Rs. cbn [st outs res fst snd] in Rs. rewrite E1. apply Rs;
        destruct Hr as [->|(x & ->)]; discriminate. }
    destruct e as [a|n l|j buf script|j face|j timeout|dt|t| | |key|j]; try (apply (Fin _ Rn eq_refl); discriminate).
    destruct (fetch_of j (f_live (sn_state (g1 i)))) as [n|] eqn:Ff.
    + apply (Fin _ Rn eq_refl). intros j1 buf1 sc1 E. injection E as <- <- _. cbn [delivers] in De.
      apply (soup_good g1 i j buf n No Sd1 Un1 Hi Ff). apply De. exact Ff.
    + exists sys, evs. cbn [fp_step] in Es. rewrite mbind_get, Ff in Es. injection Es as <- <- _.
      rewrite E1, app_nil_r. split; [|exact Gd]. exact Re.
Qed.
End Group.

(** * C126 *)
(** whatever the network did: what the application of a node published and was told makes up, without
    gap and without repetition, all numbers that the node has *)
Theorem C126_learned_exactly_once : forall K m g0 g i p,
  group_ok K m -> SpecGroup.started K m g0 -> group_run K m g0 g ->
  (forall i, (i < m)%nat -> all_sendable (K i) (ops_of (sn_out (g i)))) -> unmixed K m g ->
  (i < m)%nat -> schemes_ok (K i) -> uri_ok (K i) -> no_removal (ops_of (sn_out (g i))) ->
  gapless 0 (story p [] (sn_out (g i))) (seq0 (get_seq p (f_core (sn_state (g i))))).
Proof.
  intros K m g0 g i p Go S R Sd Un Hi Sk Uk Nr. destruct (group_reaches K m Go g0 g i S R Sd Un Hi) as (sys & evs & Re & Gd).
  rewrite (reaches_seq _ _ _ _ _ p Re). eapply story_run; eauto.
Qed.
Print Assumptions C126_learned_exactly_once.
(** handling sync data never ends in an exception *)
Theorem C126_data_never_throws : forall K m g0 g i j buf script,
  group_ok K m -> SpecGroup.started K m g0 -> group_run K m g0 g ->
  (forall i, (i < m)%nat -> all_sendable (K i) (ops_of (sn_out (g i)))) -> unmixed K m g ->
  (i < m)%nat -> schemes_ok (K i) -> uri_ok (K i) -> delivers (soup m g) (sn_state (g i)) (FeContent j buf script) ->
  tame (res (fp_step (K i) (FeContent j buf script) (sn_state (g i)))).
Proof.
  intros K m g0 g i j buf script Go S R Sd Un Hi Sk Uk De. destruct (group_reaches K m Go g0 g i S R Sd Un Hi) as (sys & evs & Re & _).
  destruct (fetch_of j (f_live (sn_state (g i)))) as [n|] eqn:Ff.
  - apply (step_tame (K i) Sk Uk); [eapply reaches_ok; eauto|]. cbn [ev_tame]. cbn [delivers] in De.
    exact (soup_good K m Go g i j buf n (group_run_ok K m Go g0 g S R Sd Un) Sd Un Hi Ff (De n Ff)).
  - cbn [fp_step]. rewrite mbind_get, Ff. exact I.
Qed.
Print Assumptions C126_data_never_throws.
(** one node published up to 7, the other was told *)
Example C126_example :
  group_ok K_62 2 /\ SpecGroup.started K_62 2 (two z0 z0) /\ group_run K_62 2 (two z0 z0) (two za3 zb1) /\
  (forall i, (i < 2)%nat -> all_sendable (K_62 i) (ops_of (sn_out (two za3 zb1 i)))) /\ unmixed K_62 2 (two za3 zb1) /\
  (forall i, schemes_ok (K_62 i) /\ uri_ok (K_62 i)) /\ no_removal (ops_of (sn_out za3)) /\ no_removal (ops_of (sn_out zb1)) /\
  story pa [] (sn_out za3) = [(1, 7)] /\ story pa [] (sn_out zb1) = [(1, 7)] /\ reported pa (sn_out za3) = [] /\
  gapless 0 [(1, 7)] 7 /\ get_seq pa (f_core (sn_state zb1)) = Some 7.
Proof.
  destruct C62_example as (A1 & A2 & A3 & A4 & A5 & A6 & _).
  split; [exact A1|]. split; [exact A2|]. split; [exact A3|]. split; [exact A4|]. split; [exact A5|].
  split; [intros i; split; [split; left; reflexivity|intros n; reflexivity]|].
  split; [apply keeps_all_ok; vm_compute; reflexivity|]. split; [apply keeps_all_ok; vm_compute; reflexivity|].
  split; [run|]. split; [run|]. split; [run|]. split; [cbn [gapless]; repeat split; lia|exact A6].
Qed.
