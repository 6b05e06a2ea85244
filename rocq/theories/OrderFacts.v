(** Proofs about the order in which updates arrive. *)
From Coq Require Import List NArith ZArith Bool Arith Lia Sorted.
From Verif Require Import Base Iblt BaseFacts IbltFacts SpecIblt Mon MonFacts Tlv TlvFacts State SpecTlv StateFacts NMap NMapFacts
  Codec CodecFacts Store SpecStore StoreFacts Producer SpecProducer ProducerFacts Partial SpecPartial PartialFacts PartialSteps
  Full FullTrace SpecFull FullFacts FullSafe FullSteps FullData FullRuns SpecExchange ExchangeFacts SpecGroup GroupFacts
  Properties_Exact Consumer Throwing SpecThrow ThrowFacts SpecOrder.
Import ListNotations.
Local Open Scope N_scope.

(** ** What a list of names says *)
Lemma says_cons c names p v : says names p v -> good_name c -> says (c :: names) p v.
Proof. intros (b & x & a & -> & T & F) G. exists (c :: b), x, a. split; [reflexivity|]. split; [exact T|constructor; auto]. Qed.
Lemma says_inv c names p v : says (c :: names) p v ->
  (exists x, c = p ++ [x] /\ to_number x = Ok v) \/ (good_name c /\ says names p v).
Proof.
  intros ([|c' b] & x & a & E & T & F); cbn [app] in E; injection E as E1 E2.
  - left. eauto.
  - right. inversion F; subst. split; auto. exists b, x, a. auto.
Qed.
Definition from_said (names : list name) (o : cop) : Prop :=
  match o with CAdd _ => True | CUpdate p v => says names p v | _ => False end.
Lemma last_split c x : name_get_minus c 1 = Ok x -> c = name_prefix_back c 1 ++ [x].
Proof.
  destruct c as [|y c _] using rev_ind; [discriminate|].
  rewrite name_get_minus_last. intros [= ->]. rewrite name_prefix_back_snoc. reflexivity.
Qed.
(** the numbers a node takes over were said *)
Lemma take_said names : forall s, Forall (from_said names) (ops_of (outs (take_updates names s))).
Proof.
  induction names as [|c names IH]; intros s; cbn [take_updates]; [constructor|].
  rewrite mbind_lift. destruct (name_get_minus c 1) as [x|e|u|] eqn:Ex; try constructor.
  rewrite mbind_lift. destruct (to_number x) as [v|e|u|] eqn:Ev; try constructor. cbv zeta. rewrite mbind_get.
  pose proof (last_split c x Ex) as Hc.
  assert (good_name c) as Gc by (exists (name_prefix_back c 1), x; split; eauto).
  assert (forall s1, Forall (from_said (c :: names)) (ops_of (outs (take_updates names s1)))) as Tail.
  { intros s1. eapply Forall_impl; [|apply IH]. intros [| | |]; cbn [from_said]; auto. intros. apply says_cons; auto. }
  destruct (match get_seq _ _ with None => true | Some cur => cur <? v end); [|apply Tail].
  unfold mbind. destruct (prefix_seq _ s) as [[s1 o1] r1] eqn:E1.
  assert (Forall (from_said (c :: names)) (ops_of o1)) as F1.
  { apply prefix_seq_inv in E1 as [(w & _ & _ & -> & _)|(_ & -> & _ & _)]; repeat constructor. }
  unfold outs. destruct r1 as [cur|e|u|]; cbn [fst snd]; auto.
  destruct (fp_op _ s1) as [[s2 o2] r2] eqn:E2.
  assert (Forall (from_said (c :: names)) (ops_of o2)) as F2.
  { apply fp_op_inv in E2 as [(k & _ & Ek & _ & ->)|(_ & -> & Nr)]; [|constructor].
    constructor; [|constructor]. exists [], x, names. cbn [app]. rewrite <- Hc. auto. }
  specialize (Tail s2). unfold outs in *.
  destruct r2 as [[]|e|u|]; cbn [fst snd]; [|rewrite ops_of_app; apply Forall_app; auto..].
  destruct (take_updates names s2) as [[s3 o3] [l3|e|u|]]; cbn [fst snd mret] in *;
    rewrite ?app_nil_r, !ops_of_app; repeat (apply Forall_app; split; auto).
Qed.
Lemma step_said K e s p v : In (CUpdate p v) (ops_of (outs (fp_step K e s))) ->
  exists i buf script n names, e = FeContent i buf script /\ fetch_of i (f_live s) = Some n /\
    content_names K buf names /\ says names p v.
Proof.
  intros H. destruct (step_updates K e s p v H) as (i & buf & script & n & names & x & -> & F & C & _).
  exists i, buf, script, n, names. split; [reflexivity|]. split; [exact F|]. split; [exact C|].
  cbn [fp_step] in H. rewrite mbind_get, F, mbind_mod in H.
  unfold on_sync_data, delete_pending in H. rewrite mbind_mod in H. unfold content_names in C. rewrite C in H.
  set (s0 := fset_pending _ _) in H. pose proof (take_said names s0) as T.
  assert (forall l, In (CUpdate p v) l -> Forall (from_said names) l -> says names p v) as Done.
  { intros l Hl Fl. rewrite Forall_forall in Fl. exact (Fl _ Hl). }
  unfold mbind at 1 in H. destruct (take_updates names s0) as [[s1 o1] r1] eqn:Et. unfold outs in T. cbn [fst snd] in T.
  destruct r1 as [l|er|u|]; try (eapply Done; [exact H|exact T]).
  destruct l as [|m l].
  - eapply Done; [|exact T]. rewrite mbind_mod in H. unfold draw in H. rewrite mbind_assoc, mbind_get, mbind_assoc, mbind_mod, mbind_ret in H.
    unfold mmod, outs in H. cbn [fst snd] in H. rewrite app_nil_r in H. exact H.
  - rewrite mbind_emit in H. pose proof (no_update_after K script s1 p v) as No. unfold outs, st in *.
    set (z := (api_calls K script ;; _) s1) in *. destruct z as [[s2 o2] r2] eqn:Z. cbn [fst snd] in *.
    rewrite ops_of_app in H. cbn [ops_of app] in H. apply in_app_or in H as [H|H]; [eapply Done; [exact H|exact T]|contradiction].
Qed.
(** whatever was said is held afterwards, also when the node stops at a later name *)
Lemma take_mono (K : fcfg) names s p : pfx_ok (k_prefixes (f_core s)) ->
  pfx_ok (k_prefixes (f_core (st (take_updates names s)))) /\ kn (f_core s) p <= kn (f_core (st (take_updates names s))) p.
Proof.
  intros Hp. destruct (take_updates names s) as [[s' o] r] eqn:T. unfold st. cbn [fst].
  destruct (take_inv names s s' o r Hp T) as (_ & _ & P2 & _). split; [exact P2|].
  assert (core_rel s o s') as R1.
  { pose proof (tr_take K (fun _ => True) core_rel (core_rel_closed _) (fun _ => I) (fun _ _ _ => I) names s) as X.
    unfold tr in X. rewrite T in X. exact X. }
  pose proof (take_from names s) as Fo. rewrite T in Fo. unfold outs in Fo. cbn [fst snd] in Fo.
  unfold kn. rewrite (get_seq_run p (ops_of o) (f_core s) (f_core s')); [|exact Hp| |exact R1].
  - apply seq_fold_mono. intros q Hq. rewrite Forall_forall in Fo. exact (Fo _ Hq).
  - eapply Forall_impl; [|exact Fo]. intros [| | |]; simpl; tauto.
Qed.
Lemma op_no_throw o s e : res (fp_op o s) <> Throw e.
Proof.
  unfold fp_op. rewrite mbind_get, mbind_lift. destruct (cstep_ends (f_core s) o) as [[k' ->]|[->| ->]]; discriminate.
Qed.
Lemma take_holds (K : fcfg) names : forall s p v, pfx_ok (k_prefixes (f_core s)) -> says names p v ->
  ((exists l, res (take_updates names s) = Ok l) \/ exists x, res (take_updates names s) = Throw x) ->
  v <= kn (f_core (st (take_updates names s))) p.
Proof.
  induction names as [|c names IH]; intros s p v Hp Hs Hr.
  { destruct Hs as ([|] & x & a & E & _); discriminate. }
  assert (exists q x w, c = q ++ [x] /\ to_number x = Ok w) as (q & x & w & -> & Ev).
  { destruct (says_inv _ _ _ _ Hs) as [(x & -> & T)|[(q & x & -> & w & T) _]]; eauto. }
  cbn [take_updates] in *. rewrite name_get_minus_last, name_prefix_back_snoc in *. rewrite mbind_lift, Ev, mbind_lift, mbind_get in *.
  assert (forall s1, pfx_ok (k_prefixes (f_core s1)) -> w <= kn (f_core s1) q ->
    ((exists l, res (take_updates names s1) = Ok l) \/ exists x, res (take_updates names s1) = Throw x) ->
    v <= kn (f_core (st (take_updates names s1))) p) as Tail.
  { intros s1 P1 G1 R1. destruct (says_inv _ _ _ _ Hs) as [(x' & E & T)|[_ Hs']]; [|apply IH; auto].
    apply app_inj_tail in E as [-> ->]. rewrite T in Ev. injection Ev as ->.
    etransitivity; [exact G1|apply (take_mono K); exact P1]. }
  destruct (match get_seq q (f_core s) with None => true | Some cur => cur <? w end) eqn:B.
  2:{ apply Tail; auto. unfold kn. destruct (get_seq q (f_core s)) as [cur|]; [|discriminate]. apply N.ltb_ge in B. exact B. }
  unfold mbind in *. destruct (prefix_seq q s) as [[s1 o1] r1] eqn:E1.
  assert (exists cur, r1 = Ok cur /\ get_seq q (f_core s1) = Some cur /\ pfx_ok (k_prefixes (f_core s1))) as (cur & -> & G1 & P1).
  { apply prefix_seq_inv in E1 as [(y & G & -> & _ & ->)|(G & _ & -> & ->)]; eauto.
    exists 0. split; [reflexivity|]. cbn [fset_core f_core].
    assert (cstep (f_core s) (CAdd q) = Ok (fst (core_add q (f_core s)))) as Ea by reflexivity. split.
    - rewrite (get_seq_step q _ _ _ Hp Ea). cbn [seq_step]. rewrite name_eqb_refl, G. reflexivity.
    - eapply (cstep_pfx _ (CAdd q)); [exact Hp|exact I|exact Ea]. }
  assert (forall r, r = res (fp_op (CUpdate q w) s1) -> (forall e, r <> Throw e) /\ True) as Nt by (intros r ->; split; [apply op_no_throw|exact I]).
  destruct (fp_op (CUpdate q w) s1) as [[s2 o2] r2] eqn:E2.
  apply fp_op_inv in E2 as [(k & -> & Ek & -> & _)|(-> & _ & Nr)].
  - assert (pfx_ok (k_prefixes k)) as P2.
    { eapply cstep_pfx; [exact P1| |exact Ek]. simpl. eapply to_number_lt; eauto. }
    assert (w <= kn k q) as G2.
    { unfold kn. rewrite (get_seq_step q _ _ _ P1 Ek), G1. cbn [seq_step]. rewrite name_eqb_refl. cbn [option_map seq0]. lia. }
    specialize (Tail (fset_core k s1) P2 G2).
    destruct (take_updates names (fset_core k s1)) as [[s3 o3] [l3|e|u|]]; unfold st, res in *; cbn [fst snd] in *.
    + apply Tail. eauto.
    + apply Tail. eauto.
    + destruct Hr as [[l X]|[y X]]; discriminate.
    + destruct Hr as [[l X]|[y X]]; discriminate.
  - exfalso. destruct (Nt r2 eq_refl) as [A _]. destruct r2 as [[]|e|u|]; unfold res in Hr; cbn [snd] in Hr.
    + apply Nr. reflexivity.
    + eapply A. reflexivity.
    + destruct Hr as [[l X]|[y X]]; discriminate.
    + destruct Hr as [[l X]|[y X]]; discriminate.
Qed.

Lemma seq_fold_mono1 p ops : forall c, ~ In (CRemove p) ops -> seq0 c <= seq0 (fold_left (seq_step p) ops c).
Proof.
  induction ops as [|o ops IH]; intros c H; simpl; [lia|].
  etransitivity; [apply (seq_step_mono p c o)|apply IH].
  - intros ->. apply H. left. reflexivity.
  - intros X. apply H. right. exact X.
Qed.
Lemma core_rel_mono p s o s' : pfx_ok (k_prefixes (f_core s)) -> Forall cop_wf (ops_of o) -> core_rel s o s' ->
  ~ In (CRemove p) (ops_of o) -> kn (f_core s) p <= kn (f_core s') p.
Proof. intros Hp W R N. unfold kn. rewrite (get_seq_run p _ _ _ Hp W R). apply seq_fold_mono1. exact N. Qed.
Lemma step_holds K i buf script s n names p v : pfx_ok (k_prefixes (f_core s)) -> Forall cop_wf (map api_op script) ->
  fetch_of i (f_live s) = Some n -> content_names K buf names -> says names p v ->
  (res (fp_step K (FeContent i buf script) s) = Ok tt \/ exists x, res (fp_step K (FeContent i buf script) s) = Throw x) ->
  ~ In (CRemove p) (ops_of (outs (fp_step K (FeContent i buf script) s))) ->
  v <= kn (f_core (st (fp_step K (FeContent i buf script) s))) p.
Proof.
  intros Hp Ws F C Sy.
  change (fp_step K (FeContent i buf script) s) with (fp_content K i buf (api_calls K script) s). rewrite content_eq, F.
  unfold content_names in C. rewrite C. cbv zeta. set (s0 := fset_pending _ _).
  assert (pfx_ok (k_prefixes (f_core s0))) as P0 by exact Hp. clearbody s0.
  pose proof (take_holds K names s0 p v P0 Sy) as T. pose proof (take_mono K names s0 p P0) as [P1 _].
  destruct (take_updates names s0) as [[s1 o1] [[|m l]|e|u|]]; unfold res, st in T, P1; cbn [fst snd] in T, P1.
  - intros _ _. unfold st. cbn [fst]. apply T. eauto.
  - set (ok := cop_wf).
    assert (Forall cop_wf (ops_of (outs ((api_calls K script ;; after_cb K) s1)))) as Ra.
    { apply (tr_after K cop_wf (sop_rel cop_wf) (sop_closed K _)); [intros; exact I|].
      rewrite Forall_forall in *. intros a Ha. apply Ws. apply in_map. exact Ha. }
    assert (core_rel s1 (outs ((api_calls K script ;; after_cb K) s1)) (st ((api_calls K script ;; after_cb K) s1))) as R2.
    { apply (tr_after K (fun _ => True) core_rel (core_rel_closed K)); auto. apply Forall_forall. auto. }
    destruct ((api_calls K script ;; after_cb K) s1) as [[s2 o2] r2]. unfold outs, st in *. cbn [fst snd] in *.
    intros _ N. rewrite ops_of_app in N. cbn [ops_of] in N.
    etransitivity; [apply T; eauto|]. apply (core_rel_mono p s1 o2 s2 P1 Ra R2).
    intros X. apply N. apply in_or_app. auto.
  - intros _ _. unfold st. cbn [fst]. apply T. eauto.
  - intros [X|[y X]]; discriminate.
  - intros [X|[y X]]; discriminate.
Qed.

(** ** Runs *)
Lemma told_app K sys a b p v : told K sys a p v -> told K sys (a ++ b) p v.
Proof.
  intros (pre & i & buf & script & post & s & o & n & names & -> & R).
  exists pre, i, buf, script, (post ++ b), s, o, n, names. rewrite <- app_assoc. auto.
Qed.
Lemma told_snoc K sys evs e s o p v : reaches K sys evs s o -> told K sys (evs ++ [e]) p v ->
  told K sys evs p v \/ exists i buf script n names, e = FeContent i buf script /\ fetch_of i (f_live s) = Some n /\
    content_names K buf names /\ says names p v.
Proof.
  intros R (pre & i & buf & script & post & s1 & o1 & n & names & E & R1 & F & C & Sy).
  destruct post as [|e' post _] using rev_ind.
  - apply app_inj_tail in E as [-> ->]. right. exists i, buf, script, n, names.
    destruct R as [_ R], R1 as [_ R1]. rewrite R in R1. injection R1 as <- <-. auto.
  - left. exists pre, i, buf, script, post, s1, o1, n, names. split; auto.
    change (FeContent i buf script :: post ++ [e']) with ((FeContent i buf script :: post) ++ [e']) in E.
    rewrite app_assoc in E. apply app_inj_tail in E as [-> _]. reflexivity.
Qed.
Lemma told_held K sys p v evs : forall s o, reaches K sys evs s o -> ~ In (CRemove p) (ops_of o) ->
  told K sys evs p v -> v <= kn (f_core s) p.
Proof.
  induction evs as [|e evs IH] using rev_ind; intros s o R N T.
  - destruct T as ([|] & i & buf & script & post & s1 & o1 & n & names & E & _); discriminate.
  - apply reaches_inv in R as (s1 & o1 & R1 & We & -> & -> & Hr). rewrite ops_of_app in N.
    pose proof (reaches_pfx _ _ _ _ _ R1) as Hp.
    assert (~ In (CRemove p) (ops_of (outs (fp_step K e s1)))) as N2 by (intros X; apply N, in_or_app; auto).
    destruct (told_snoc K sys evs e s1 o1 p v R1 T) as [T'|(i & buf & script & n & names & -> & F & C & Sy)].
    + etransitivity; [apply (IH s1 o1 R1); auto; intros X; apply N, in_or_app; auto|].
      apply (core_rel_mono p s1 (outs (fp_step K e s1))); auto; [|apply step_core]. apply step_ops. exact We.
    + eapply step_holds; eauto.
Qed.
Lemma update_told K sys p v evs : forall s o, reaches K sys evs s o -> In (CUpdate p v) (ops_of o) -> told K sys evs p v.
Proof.
  induction evs as [|e evs IH] using rev_ind; intros s o R U.
  - apply reaches_nil in R as (n & _ & _ & ->). destruct U.
  - apply reaches_inv in R as (s1 & o1 & R1 & We & -> & -> & Hr). rewrite ops_of_app in U.
    apply in_app_or in U as [U|U]; [apply told_app; eapply IH; eauto|].
    apply step_said in U as (i & buf & script & n & names & -> & F & C & Sy).
    exists evs, i, buf, script, [], s1, o1, n, names. auto.
Qed.
Lemma announced_held n ops p v k : Forall cop_wf ops -> crun (core_new n) ops = Ok k -> ~ In (CRemove p) ops ->
  announced n ops p v -> v <= kn k p.
Proof.
  intros W C N (pre & post & q & k1 & cur & -> & E & G & ->). apply Forall_app in W as [W1 W2]. inversion W2; subst.
  pose proof (crun_pfx _ _ _ (core_new_pfx n) W1 E) as P1.
  rewrite crun_app, E in C. cbn [obind crun] in C. apply obind_ok in C as (k2 & C1 & C).
  assert (pfx_ok (k_prefixes k2)) as P2 by (eapply cstep_pfx; eauto).
  assert (kn k2 p <= kn k p) as M.
  { unfold kn. rewrite (get_seq_run p post _ _ P2) with (2 := C); auto. apply seq_fold_mono1. intros X. apply N, in_or_app. right. right. exact X. }
  etransitivity; [|exact M]. unfold kn. rewrite (get_seq_step p _ _ _ P1 C1), G. cbn [seq_step]. rewrite name_eqb_refl.
  destruct q as [x|]; cbn [option_map seq0]; lia.
Qed.

(** ** Equal numbers mean equal IBFs *)
Lemma sorted_filter (f : name * N -> bool) m : StronglySorted name_lt (map fst m) -> StronglySorted name_lt (map fst (filter f m)).
Proof.
  induction m as [|x m IH]; cbn [map filter]; [auto|]. intros H. inversion H; subst. destruct (f x); [|auto].
  cbn [map]. constructor; [auto|]. rewrite Forall_forall in *. intros y Hy. apply H3. apply in_map_iff in Hy as (z & <- & Hz).
  apply filter_In in Hz as [Hz _]. apply in_map. exact Hz.
Qed.
Lemma find_live p m : nm_sorted m -> nm_find p (filter (fun x => negb (snd x =? 0)) m) =
  match nm_find p m with Some v => if v =? 0 then None else Some v | None => None end.
Proof.
  intros S. set (g := filter _ m). assert (nm_sorted g) as Sg by (apply sorted_filter; exact S).
  destruct (nm_find p g) as [v|] eqn:E.
  - apply nm_find_In in E. apply filter_In in E as [E F]. rewrite (nm_In_find _ _ _ S E). cbn [snd] in F.
    destruct (v =? 0); [discriminate|reflexivity].
  - destruct (nm_find p m) as [v|] eqn:E'; [|reflexivity]. destruct (v =? 0) eqn:Z; [reflexivity|].
    apply nm_find_In in E'. assert (In (p, v) g) as X by (apply filter_In; split; [exact E'|cbn [snd]; rewrite Z; reflexivity]).
    rewrite (nm_In_find _ _ _ Sg X) in E. discriminate.
Qed.
Lemma live_ext k1 k2 : pfx_ok (k_prefixes k1) -> pfx_ok (k_prefixes k2) -> (forall p, kn k1 p = kn k2 p) -> live k1 = live k2.
Proof.
  intros [S1 _] [S2 _] H. unfold live, live_names. f_equal. apply nm_ext.
  - unfold nm_sorted in *. apply sorted_filter. exact S1.
  - unfold nm_sorted in *. apply sorted_filter. exact S2.
  - intros p. rewrite !find_live by assumption. specialize (H p). unfold kn, get_seq in H.
    destruct (nm_find p (k_prefixes k1)) as [a|], (nm_find p (k_prefixes k2)) as [b|]; cbn [seq0] in H; subst; auto.
Qed.
Lemma iblt_ext n k1 k2 : core_ok n k1 -> core_ok n k2 -> live k1 = live k2 -> k_iblt k1 = k_iblt k2.
Proof.
  intros K1 K2 E. pose proof (core_ok_ibf _ _ K1) as I1. pose proof (core_ok_ibf _ _ K2) as I2.
  unfold IbfOf in *. rewrite E in I1. congruence.
Qed.
