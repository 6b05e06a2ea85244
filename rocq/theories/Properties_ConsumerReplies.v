(** C73 to C75: what a consumer does with replies and with errors. *)
From Coq Require Import List NArith ZArith Bool Arith Lia Permutation.
From Coq.Strings Require Import Byte.
From Verif Require Import Base BaseFacts Mon MonFacts Iblt Tlv TlvFacts State StateFacts NMap NMapFacts Codec
  Bloom SpecBloom BloomFacts Properties_Bloom Store Producer SpecProducer ProducerFacts Properties_Producer Partial PartialFacts PartialSteps
  Properties_Partial Full FullTrace SpecFull FullData FullRuns Properties_Full Consumer SpecConsumer ConsumerFacts ConsumerLive ConsumerReplies
  Properties_Consumer Properties_ConsumerLive.
Import ListNotations.
Local Open Scope N_scope.

(** * C73 *)
Theorem C73_hello_callback : forall K evs s o i n buf sc1 sc2 names s' o', creaches K evs s o ->
  cfetch i (c_live s) = Some (KHello, n) -> state_of_buffer buf = Ok names -> Forall good_name names ->
  creaches K (evs ++ [CeContent i buf sc1 sc2]) s' o' ->
  exists av o2, o' = o ++ CoHello av :: o2 /\ (forall av', ~ In (CoHello av') o2) /\
    forall p v, nm_find p av = Some v <-> first_for names p v.
Proof.
  intros K evs s o i n buf sc1 sc2 names s' o' R Hi B1 B2 R'.
  destruct (creaches_snoc _ _ _ _ _ R') as (s1 & o1 & o3 & r & R1 & E & -> & _). destruct (creaches_fun _ _ _ _ _ _ R R1) as [-> ->].
  destruct (hello_outs K i buf sc1 sc2 s n names Hi B1 B2) as (av & o2 & E2 & F & A). rewrite E in E2. cbn [outs fst snd] in E2. subst o3.
  exists av, o2. split; [reflexivity|]. split; [|exact A]. intros av' H. rewrite Forall_forall in F. apply (F _ H av'). reflexivity.
Qed.
Print Assumptions C73_hello_callback.
Theorem C73_only_for_hello_replies : forall K evs s o e s' o' av, creaches K evs s o -> creaches K (evs ++ [e]) s' (o ++ o') ->
  In (CoHello av) o' -> exists i buf sc1 sc2 n, e = CeContent i buf sc1 sc2 /\ cfetch i (c_live s) = Some (KHello, n).
Proof.
  intros K evs s o e s' o' av R R' H.
  destruct (creaches_snoc _ _ _ _ _ R') as (s1 & o1 & o3 & r & R1 & E & Eo & _). destruct (creaches_fun _ _ _ _ _ _ R R1) as [-> ->].
  apply app_inv_head in Eo. subst o3.
  assert ((forall i buf sc1 sc2 n, e = CeContent i buf sc1 sc2 -> cfetch i (c_live s) <> Some (KHello, n)) -> False) as No.
  { intros X. pose proof (nh_step K e s X) as F. rewrite E in F. rewrite Forall_forall in F. apply (F _ H av). reflexivity. }
  destruct e as [a|i d|i buf sc1 sc2|i to|dt|i]; try (destruct No; intros; discriminate).
  destruct (cfetch i (c_live s)) as [[[] n]|] eqn:Ec; [eexists _, _, _, _, _; split; [reflexivity|exact Ec]|..].
  - destruct No. intros i' buf' sc1' sc2' n' [= <- _ _ _]. congruence.
  - destruct No. intros i' buf' sc1' sc2' n' [= <- _ _ _]. congruence.
Qed.
Print Assumptions C73_only_for_hello_replies.
(** a reply that has one prefix twice: the first number counts *)
Definition twice : list name := [append_number pa 3; append_number pb 8; append_number pa 5].
Definition evs_h : list cev := [CeCall CSendHello; CeSegment 0 (seg hello_name Blob)].
Definition s_h : cs := Eval vm_compute in fst (after evs_h).
Definition o_h : list cout := Eval vm_compute in snd (after evs_h).
Lemma reach_h : creaches Kc evs_h s_h o_h.
Proof. apply reach_c. vm_compute. reflexivity. Qed.
Example C73_example : creaches Kc evs_h s_h o_h /\ cfetch 0 (c_live s_h) = Some (KHello, hello_prefix Kc) /\
  state_of_buffer (encode_names twice) = Ok twice /\ Forall good_name twice /\ first_for twice pa 3 /\ ~ first_for twice pa 5 /\
  exists s', creaches Kc (evs_h ++ [CeContent 0 (encode_names twice) [] []]) s' (o_h ++ [CoHello [(pa, 3); (pb, 8)]]).
Proof.
  split; [exact reach_h|]. split; [reflexivity|]. split; [vm_compute; reflexivity|]. split.
  { repeat constructor; apply number_good; reflexivity. }
  split. { exists [], (number_comp TYPE_GENERIC 3), [append_number pb 8; append_number pa 5]. split; [reflexivity|]. split; [vm_compute; reflexivity|]. intros y []. }
  split.
  - intros (l1 & x & l2 & E & X & N). destruct l1 as [|a l1].
    + cbn [app] in E. injection E as E _. subst x. vm_compute in X. discriminate.
    + injection E as <- _. apply (N (number_comp TYPE_GENERIC 3)). left. reflexivity.
  - eexists. apply reach_c. vm_compute. reflexivity.
Qed.

(** * C74 *)
Lemma cfetch_in i x l : cfetch i l = Some x -> exists l1 l2, l = l1 ++ (i, x) :: l2.
Proof.
  induction l as [|[j y] l IH]; [discriminate|]. cbn [cfetch]. destruct (Nat.eqb i j) eqn:E.
  - intros [= ->]. apply Nat.eqb_eq in E. subst. exists [], l. reflexivity.
  - intros H. destruct (IH H) as (l1 & l2 & ->). exists ((j, y) :: l1), l2. reflexivity.
Qed.
(** what a retry of each kind needs *)
Definition can_retry (K : ccfg) (evs : list cev) (k : kind) : Prop :=
  match k with KHello => True | KSync => Forall named_data evs /\ fetchers_in_order K evs /\ completed K evs KHello end.
Lemma retry_sends K evs s o k s1 : filter_ok K -> rate_ok K -> creaches K evs s o -> can_retry K evs k ->
  c_iblt s1 = c_iblt s -> c_bloom s1 = c_bloom s ->
  exists s2 m, (match k with KHello => send_hello K | KSync => send_sync K end) s1 = (s2, [CoInterest k m], Ok tt).
Proof.
  intros Hf Hr R C EI EB. destruct k; [rewrite send_hello_eq; eexists _, _; reflexivity|]. destruct C as (C1 & C2 & C3).
  pose proof (has_iblt_after K evs C1 C2 s o R C3) as HI. unfold has_iblt in HI.
  rewrite send_sync_eq, EI, EB. destruct (c_iblt s) as [|c r]; [destruct (HI eq_refl)|].
  destruct Hf as (b & Eb & Hb). destruct Hr as (_ & t & Hr & Ht). destruct (creaches_inv _ _ _ _ R) as (b0 & E0 & D & _). rewrite Eb in E0. injection E0 as <-.
  destruct (append_safe K b t Eb Hr Ht s (sync_prefix K) D) as [n1 ->]. eexists _, _; reflexivity.
Qed.
(** an error leads to a retry 100 to 500 ms later *)
Lemma error_step K i k n to s : cfetch i (c_live s) = Some (k, n) -> (k = KSync -> to = false) ->
  exists d, MIN_JITTER <= d <= MAX_JITTER /\
    c_step K (CeError i to) s = (cset_draws (S (c_draws s)) (cset_timers (c_timers s ++ [(c_now s + d, k)]) (cset_live (cwithout i (c_live s)) s)), [], Ok tt).
Proof.
  intros Hi Ht. exists (jitter_of (cc_env K) (c_draws s)). split; [apply jitter_bounds|]. cbn [c_step]. rewrite mbind_get, Hi.
  destruct k; [|rewrite (Ht eq_refl)]; unfold finish; rewrite mbind_mod; reflexivity.
Qed.
Theorem C74_retry : forall K evs s o i k n to dt, filter_ok K -> rate_ok K -> creaches K evs s o ->
  cfetch i (c_live s) = Some (k, n) -> (k = KSync -> to = false) -> can_retry K evs k -> 500 <= dt ->
  exists s' m, c_run K s [CeError i to; CeTick dt; CeTimer (length (c_timers s))] = Some (s', [CoInterest k m]).
Proof.
  intros K evs s o i k n to dt Hf Hr R Hi Ht C D. destruct (error_step K i k n to s Hi Ht) as (d & [_ Hd] & E). unfold MAX_JITTER in Hd.
  unfold c_run. cbn [run]. rewrite E. cbn [c_step]. unfold mmod at 1. rewrite mbind_get. cbn [c_timers cset_now cset_draws cset_timers c_now cset_live].
  rewrite nth_error_app2, Nat.sub_diag by lia. cbn [nth_error]. assert (c_now s + d <=? c_now s + dt = true) as -> by (apply N.leb_le; lia).
  rewrite mbind_mod. match goal with |- context [(match k with KHello => send_hello K | KSync => send_sync K end) ?x] => set (s1 := x) end.
  destruct (retry_sends K evs s o k s1 Hf Hr R C eq_refl eq_refl) as (s2 & m & E2). exists s2, m. destruct k; rewrite E2; reflexivity.
Qed.
Print Assumptions C74_retry.
(** and not earlier: when nothing else goes on, nothing happens in the next 100 ms *)
Theorem C74_not_before : forall K evs s o i k n to mid, creaches K evs s o ->
  c_live s = [(i, (k, n))] -> c_timers s = [] -> (k = KSync -> to = false) -> Forall external mid -> elapsed mid < 100 ->
  exists s', c_run K s (CeError i to :: mid) = Some (s', []).
Proof.
  intros K evs s o i k n to mid R L T Ht F Lt.
  assert (cfetch i (c_live s) = Some (k, n)) as Hi by (rewrite L; simpl; rewrite Nat.eqb_refl; reflexivity).
  destruct (error_step K i k n to s Hi Ht) as (d & [Hd _] & E). unfold MIN_JITTER in Hd. unfold c_run. cbn [run]. rewrite E. rewrite T.
  set (s1 := cset_draws _ _). destruct (idle_run K (c_now s + d) k mid s1) as (s2 & R2 & _); [|exact F|change (c_now s1) with (c_now s); lia|].
  - split; [|reflexivity]. unfold s1. simpl. rewrite L. simpl. rewrite Nat.eqb_refl. reflexivity.
  - unfold c_run in R2. rewrite R2. exists s2. reflexivity.
Qed.
Print Assumptions C74_not_before.
(** a sync interest that timed out is sent again at once *)
Theorem C74_timeout : forall K evs s o i n, filter_ok K -> rate_ok K -> creaches K evs s o ->
  cfetch i (c_live s) = Some (KSync, n) -> can_retry K evs KSync ->
  exists s' m, c_run K s [CeError i true] = Some (s', [CoInterest KSync m]).
Proof.
  intros K evs s o i n Hf Hr R Hi C. unfold c_run. cbn [run c_step]. rewrite mbind_get, Hi. unfold finish. rewrite mbind_mod.
  destruct (retry_sends K evs s o KSync (cset_live (cwithout i (c_live s)) s) Hf Hr R C eq_refl eq_refl) as (s2 & m & ->). exists s2, m. reflexivity.
Qed.
Print Assumptions C74_timeout.
(** a scheduled retry is done once: a timer that fires is gone, all others stay *)
Definition kt {A} (m : CM A) : Prop := forall s, c_timers (st (m s)) = c_timers s.
Lemma kt_bind {A B} (m : CM A) (f : A -> CM B) : kt m -> (forall x, kt (f x)) -> kt (mbind m f).
Proof.
  intros Hm Hf s. unfold mbind. pose proof (Hm s) as X. unfold st in *. destruct (m s) as [[s1 o1] [a|e|u|]]; try exact X.
  specialize (Hf a s1). unfold st in Hf. destruct (f a s1) as [[s2 o2] r2]. cbn in *. congruence.
Qed.
Lemma kt_get {B} (f : cs -> CM B) : (forall x, kt (f x)) -> kt (mbind mget f).
Proof. intros H s. rewrite mbind_get. apply H. Qed.
Lemma kt_ret {A} (a : A) : kt (mret a). Proof. intros s. reflexivity. Qed.
Lemma kt_lift {A} (r : outcome A) : kt (mlift r). Proof. intros s. reflexivity. Qed.
Lemma kt_emit l : kt (memit l). Proof. intros s. reflexivity. Qed.
Lemma kt_mod f : (forall s, c_timers (f s) = c_timers s) -> kt (mmod f). Proof. intros H s. apply H. Qed.
Lemma cstop_timers p s : c_timers (cstop p s) = c_timers s. Proof. destruct p; reflexivity. Qed.
Lemma cstart_timers k n s : c_timers (cstart k n s) = c_timers s. Proof. destruct k; reflexivity. Qed.
Ltac kt_go := repeat first
  [apply kt_get; intros|apply kt_ret|apply kt_lift|apply kt_emit
  |apply kt_mod; intros; rewrite ?cstart_timers, ?cstop_timers; reflexivity|apply kt_bind; [|intros]].
Lemma kt_hello K : kt (send_hello K). Proof. unfold send_hello. kt_go. Qed.
Lemma kt_sync K : kt (send_sync K).
Proof. unfold send_sync. apply kt_get. intros x. destruct (c_iblt x); kt_go. Qed.
Lemma kt_call K a : a <> CStop -> kt (call K a).
Proof.
  intros N. destruct a; cbn [call]; [| |apply kt_hello|apply kt_sync|destruct (N eq_refl)].
  - unfold add_sub. apply kt_bind; [|intros; kt_go]. apply kt_get. intros x. destruct (nm_find p (c_prefixes x)); kt_go. destruct (cb && _); kt_go.
  - unfold remove_sub. apply kt_bind; [|intros; kt_go]. apply kt_get. intros x. destruct (is_subscribed p x); kt_go.
Qed.
Lemma kt_calls K l : ~ In CStop l -> kt (calls K l).
Proof.
  induction l as [|a l IH]; intros N; cbn [calls]; [apply kt_ret|]. apply kt_bind; [apply kt_call; intros ->; apply N; left; reflexivity|].
  intros _. apply IH. intros H. apply N. right. exact H.
Qed.
Lemma kt_take_hello l : forall a, kt (take_hello l a).
Proof.
  induction l as [|c l IH]; intros a; cbn [take_hello]; kt_go. destruct (_ && _); [|apply IH]. kt_go. apply IH.
Qed.
Lemma kt_take_sync l : kt (take_sync l).
Proof.
  induction l as [|c l IH]; cbn [take_sync]; kt_go. destruct (match nm_find _ _ with None => true | _ => _ end); [|apply IH]. kt_go. apply IH.
Qed.
Theorem C74_fires_once : forall K s i dl k s' o r, nth_error (c_timers s) i = Some (dl, k) ->
  c_step K (CeTimer i) s = (s', o, r) ->
  (dl <= c_now s -> Permutation (c_timers s) ((dl, k) :: c_timers s')) /\ (c_now s < dl -> s' = s /\ o = [] /\ r = Ok tt).
Proof.
  intros K s i dl k s' o r H. cbn [c_step]. rewrite mbind_get, H. destruct (N.leb_spec dl (c_now s)) as [L|L].
  - rewrite mbind_mod. intros E. split; [intros _|lia]. set (x := cset_timers _ _) in E.
    assert (c_timers s' = c_timers x) as ->.
    { destruct k; [pose proof (kt_hello K x) as T|pose proof (kt_sync K x) as T]; rewrite E in T; exact T. }
    unfold x. cbn [c_timers cset_timers].
    destruct (nth_error_split _ _ H) as (l1 & l2 & -> & <-). rewrite firstn_app, firstn_all, Nat.sub_diag. cbn [firstn]. rewrite app_nil_r.
    rewrite skipn_app, skipn_all2, Nat.sub_succ_l, Nat.sub_diag by lia. cbn [skipn app]. symmetry. apply Permutation_middle.
  - intros [= <- <- <-]. split; [lia|auto].
Qed.
Print Assumptions C74_fires_once.
Theorem C74_others_wait : forall K e s s' o r, (forall i, e <> CeTimer i) -> ~ In CStop (calls_of e) ->
  c_step K e s = (s', o, r) ->
  c_timers s' = c_timers s \/
  exists i k n to d, e = CeError i to /\ cfetch i (c_live s) = Some (k, n) /\ 100 <= d <= 500 /\ c_timers s' = c_timers s ++ [(c_now s + d, k)].
Proof.
  intros K e s s' o r Nt Nc E.
  assert (kt (c_step K e) -> c_timers s' = c_timers s) as Kt by (intros H; specialize (H s); rewrite E in H; exact H).
  destruct e as [a|i d|i buf sc1 sc2|i to|dt|i]; [left; apply Kt..| |left; apply Kt|destruct (Nt i eq_refl)].
  - apply kt_call. intros ->. apply Nc. left. reflexivity.
  - cbn [c_step]. apply kt_get. intros x. destruct (cfetch i (c_live x)) as [[[] n]|]; [| |apply kt_ret].
    + destruct (d_final d); kt_go.
    + apply kt_bind; [destruct (d_final d); kt_go|]. intros _. apply kt_get. intros y. destruct (is_nack (c_type y)); [apply kt_hello|apply kt_ret].
  - assert (~ In CStop sc1 /\ ~ In CStop sc2) as [N1 N2] by (split; intros H; apply Nc; cbn; apply in_or_app; auto).
    cbn [c_step]. apply kt_get. intros x. destruct (cfetch i (c_live x)) as [[[] n]|]; [| |apply kt_ret].
    + unfold finish, on_hello_data. kt_go; [apply kt_take_hello|apply kt_calls; exact N1|]. destruct (fst _); kt_go. apply kt_calls. exact N2.
    + unfold finish. kt_go. destruct (is_nack (c_type x)); [kt_go|]. unfold on_csync_data.
      apply kt_bind; [kt_go|intros _]. apply kt_bind; [kt_go|intros names]. apply kt_bind; [apply kt_take_sync|intros ups]. apply kt_bind; [|intros _; apply kt_sync].
      match goal with |- kt (match ?l with [] => _ | _ => _ end) => destruct l end; kt_go. apply kt_calls. exact N2.
  - destruct (cfetch i (c_live s)) as [[k n]|] eqn:F.
    + destruct k, to.
      * right. destruct (error_step K i KHello n true s F ltac:(discriminate)) as (d & Hd & X). rewrite X in E. injection E as <- _ _. exists i, KHello, n, true, d. auto.
      * right. destruct (error_step K i KHello n false s F ltac:(discriminate)) as (d & Hd & X). rewrite X in E. injection E as <- _ _. exists i, KHello, n, false, d. auto.
      * left. cbn [c_step] in E. rewrite mbind_get, F in E. unfold finish in E. rewrite mbind_mod in E.
        pose proof (kt_sync K (cset_live (cwithout i (c_live s)) s)) as T. rewrite E in T. exact T.
      * right. destruct (error_step K i KSync n false s F ltac:(reflexivity)) as (d & Hd & X). rewrite X in E. injection E as <- _ _. exists i, KSync, n, false, d. auto.
    + left. cbn [c_step] in E. rewrite mbind_get, F in E. injection E as <- _ _. reflexivity.
  - cbn [c_step]. apply kt_mod. reflexivity.
Qed.
Print Assumptions C74_others_wait.
(** hypotheses: two fetches failed; the retry of the second fires, that of the first stays *)
Example C74_once_example : exists s o, creaches Kc (evs_c1 ++ [CeCall CSendHello; CeError 1 false; CeError 2 true; CeTick 600]) s o /\
  exists d1 d2 s' o', c_timers s = [(d1, KSync); (d2, KHello)] /\ d2 <= c_now s /\
  c_step Kc (CeTimer 1) s = (s', o', Ok tt) /\ c_timers s' = [(d1, KSync)].
Proof.
  eexists _, _. split; [apply reach_c; vm_compute; reflexivity|]. eexists _, _, _, _. split; [vm_compute; reflexivity|].
  split; [vm_compute; discriminate|]. split; vm_compute; reflexivity.
Qed.
Lemma can_retry_c1 : can_retry Kc evs_c1 KSync.
Proof. destruct C72_example as (_ & _ & _ & A & B & C & _). split; [exact A|]. split; [exact B|exact C]. Qed.
Example C74_example : filter_ok Kc /\ rate_ok Kc /\ creaches Kc evs_c1 s_c1 o_c1 /\ can_retry Kc evs_c1 KSync /\
  (exists n, c_live s_c1 = [(1%nat, (KSync, n))] /\ c_timers s_c1 = []) /\
  Forall external [CeTick 60; CeTimer 0; CeTick 39] /\ elapsed [CeTick 60; CeTimer 0; CeTick 39] < 100.
Proof.
  split; [exact filter_c|]. split; [exact rate_c|]. split; [exact reach_c1|]. split; [exact can_retry_c1|]. split; [eexists; split; reflexivity|].
  split; [repeat constructor; discriminate|]. vm_compute. reflexivity.
Qed.

(** * C75 *)
(** every sync interest ends with the IBF that came with the last reply *)
Theorem C75_interests_carry_the_last_ibf : forall K evs s o i k m d pre c v sg buf sc1 sc2 evs2 s' o' n, creaches K evs s o ->
  cfetch i (c_live s) = Some (k, m) -> d_final d <> None -> d_type d = Blob -> d_name d = pre ++ [c; v; sg] ->
  Forall (fun e => content_of e = []) evs2 ->
  c_run K s (CeSegment i d :: CeContent i buf sc1 sc2 :: evs2) = Some (s', o') -> In (CoInterest KSync n) o' ->
  exists f1 f2 f3, n = cc_sync K ++ [SYNC; f1; f2; f3; c].
Proof.
  intros K evs s o i k m d pre c v sg buf sc1 sc2 evs2 s' o' n R Hi Hd Hty Hn F2 Rn Hin.
  assert (last_comp (name_prefix_back (d_name d) 2) = [c]) as HX.
  { rewrite Hn. unfold name_prefix_back. rewrite app_length. cbn [length]. replace (length pre + 3 - 2)%nat with (S (length pre)) by lia.
    change (pre ++ [c; v; sg]) with (pre ++ [c] ++ [v; sg]). rewrite app_assoc. replace (S (length pre)) with (length (pre ++ [c])) by (rewrite app_length; simpl; lia).
    rewrite firstn_app, Nat.sub_diag, firstn_all, firstn_O, app_nil_r. unfold last_comp. rewrite app_length. simpl.
    replace (length pre + 1 - 1)%nat with (length pre) by lia. rewrite skipn_app, skipn_all, Nat.sub_diag. reflexivity. }
  destruct (d_final d) as [fb|] eqn:Ef; [clear Hd|congruence].
  assert (hoare_pair : exists s1, c_step K (CeSegment i d) s = (s1, [], Ok tt) /\
    hI [c] (st (c_step K (CeContent i buf sc1 sc2) s1)) /\ Forall (hP K [c]) (outs (c_step K (CeContent i buf sc1 sc2) s1))).
  { destruct k.
    - exists (cset_hname (name_prefix_back (d_name d) 2) s). split; [cbn [c_step]; rewrite mbind_get, Hi, Ef; reflexivity|].
      cbn [c_step]. rewrite mbind_get. cbn [c_live cset_hname]. rewrite Hi. unfold finish. rewrite mbind_mod. apply held_on_hello. exact HX.
    - exists (cset_type (d_type d) (cset_sname (name_prefix_back (d_name d) 2) s)). split; [cbn [c_step]; rewrite mbind_get, Hi, Ef, mbind_mod, mbind_get; cbn [c_type cset_type]; rewrite Hty; reflexivity|].
      cbn [c_step]. rewrite mbind_get. cbn [c_live cset_sname cset_type c_type]. rewrite Hi. unfold finish. rewrite mbind_mod, Hty. cbn [is_nack]. apply held_on_sync. exact HX. }
  destruct hoare_pair as (s1 & E1 & H2 & P2). unfold c_run in Rn. cbn [run] in Rn. rewrite E1 in Rn. cbn [app] in Rn.
  destruct (c_step K (CeContent i buf sc1 sc2) s1) as [[s2 o2] r2]. cbn [st outs fst snd] in *.
  assert (exists o3, run (c_step K) s2 evs2 = Some (s', o3) /\ o' = o2 ++ o3) as (o3 & R3 & ->).
  { destruct r2; try discriminate; destruct (run (c_step K) s2 evs2) as [[s3 o3]|]; try discriminate; injection Rn as <- <-; exists o3; split; reflexivity. }
  destruct (held_run K [c] evs2 F2 s2 s' o3 H2 R3) as [_ P3]. assert (Forall (hP K [c]) (o2 ++ o3)) as P by (apply Forall_app; auto).
  rewrite Forall_forall in P. destruct (P _ Hin n eq_refl) as (f1 & f2 & f3 & -> & _). exists f1, f2, f3. unfold sync_prefix. rewrite <- app_assoc. reflexivity.
Qed.
Print Assumptions C75_interests_carry_the_last_ibf.
Example C75_example : creaches Kc evs_c1 s_c1 o_c1 /\ (exists m, cfetch 1 (c_live s_c1) = Some (KSync, m)) /\
  exists pre v sg s' n, d_name (seg sync_name Blob) = pre ++ [gen [x01]; v; sg] /\
    c_run Kc s_c1 [CeSegment 1 (seg sync_name Blob); CeContent 1 two_content [] []; CeError 2 true] = Some (s', [CoInterest KSync n; CoInterest KSync n]).
Proof.
  split; [exact reach_c1|]. split; [eexists; reflexivity|]. exists (syncp ++ [SYNC]). eexists _, _, _, _. split; [reflexivity|]. vm_compute. reflexivity.
Qed.
