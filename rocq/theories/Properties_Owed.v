(** C99: one event of a full-sync node, whatever its application calls from the update callback. *)
From Coq Require Import List NArith ZArith Bool Arith Lia Sorted.
From Verif Require Import Base Mon MonFacts Iblt BaseFacts Tlv State NMap TlvFacts NMapFacts Codec CodecFacts
  Store StoreFacts Producer SpecProducer ProducerFacts Properties_Producer Partial SpecPartial Properties_Partial
  Full FullTrace SpecFull FullFacts FullSafe FullSteps FullData FullTimers FullWaiting FullPending FlowFacts FullFlow FullRuns Properties_Full Properties_Flow.
Import ListNotations.
Local Open Scope nat_scope.

Section Owed.
Variable K : fcfg.
Hypothesis Sk : schemes_ok K.
(** what was sent and what is still pending are at most what was pending; nothing changes about who waits *)
Definition owed (s : fp) (o : list fout) (s' : fp) : Prop :=
  cnt o + length (f_pending s') <= length (f_pending s) /\ f_waiting s' = f_waiting s.
Lemma owed_trans s o s1 o1 s2 : owed s o s1 -> owed s1 o1 s2 -> owed s (o ++ o1) s2.
Proof. intros [A B] [C D]. split; [unfold cnt in *; rewrite data_of_app, app_length; lia|congruence]. Qed.
Lemma owed_same s o s' : same3 s o s' -> owed s o s'.
Proof. intros (A & B & _ & D). split; [unfold cnt; rewrite A, D; cbn; lia|exact B]. Qed.
Lemma owed_bind {A B} s (m : FM A) (f : A -> FM B) : owed s (outs (m s)) (st (m s)) ->
  (forall x s1, owed s1 (outs (f x s1)) (st (f x s1))) -> owed s (outs (mbind m f s)) (st (mbind m f s)).
Proof.
  intros Hm Hf. unfold mbind, st, outs in *. destruct (m s) as [[s1 o1] [a|e|u|]]; auto. cbn [fst snd] in *.
  specialize (Hf a s1). destruct (f a s1) as [[s2 o2] r2]. cbn [fst snd] in *. eapply owed_trans; eauto.
Qed.
(** sending sync data: the two lists stay, at most one packet, and none if it fails *)
Lemma data_sent n l f s : let x := send_sync_data K n l f s in
  f_pending (st x) = f_pending s /\ f_waiting (st x) = f_waiting s /\ cnt (outs x) <= 1 /\ (res x <> Ok tt -> cnt (outs x) = 0).
Proof.
  cbv zeta. unfold send_sync_data. rewrite mbind_get. cbv zeta.
  assert (forall (b : bool) s, let x := (mlet buf <- mlift (compress (fc_codec K) (fc_cscheme K) (encode_names l));
    fp_publish K n n buf f ;; if b then send_sync_interest K else mret tt) s in
    f_pending (st x) = f_pending s /\ f_waiting (st x) = f_waiting s /\ cnt (outs x) <= 1 /\ (res x <> Ok tt -> cnt (outs x) = 0)) as G.
  { intros b s0. cbv zeta. rewrite mbind_lift. destruct (compress _ _ _) as [buf|e|u|]; try (cbn; auto; fail).
    unfold mbind, fp_publish. destruct (publish _ _ _ _ _ _ _) as [p [x|x|x|]] eqn:P; try (cbn; auto; fail).
    apply publish_one in P. cbn [fst snd]. set (s1 := fset_pub p s0).
    destruct b.
    - destruct (send_spec K s1 Sk) as (s2 & o & -> & Fr & _ & O). cbn [st outs res fst snd].
      split; [rewrite (fr_pending _ _ Fr); reflexivity|]. split; [rewrite (fr_waiting _ _ Fr); reflexivity|].
      split; [|intros X; destruct (X eq_refl)]. unfold cnt. rewrite data_of_app, data_of_data, (only_interests_data o O), app_nil_r. exact P.
    - cbn [mret st outs res fst snd]. split; [reflexivity|]. split; [reflexivity|]. split; [|intros X; destruct (X eq_refl)].
      rewrite app_nil_r. unfold cnt. rewrite data_of_data. exact P. }
  destruct (_ && _).
  - rewrite mbind_assoc. unfold stop_fetcher. rewrite mbind_mod, mbind_mod.
    match goal with |- context [mbind _ _ ?x] => assert (f_pending x = f_pending s /\ f_waiting x = f_waiting s) as [<- <-] by (destruct (f_fetcher s); auto) end.
    apply G.
  - rewrite mbind_ret. apply G.
Qed.
Lemma owed_satisfy_one u k s : owed s (outs (fsatisfy_one K u k s)) (st (fsatisfy_one K u k s)).
Proof.
  unfold fsatisfy_one. rewrite mbind_get. destruct (nm_find k (f_pending s)) as [e|] eqn:F; [|apply owed_same, same3_refl].
  rewrite mbind_lift. destruct (iblt_sub _ _ _) as [d|x|x|]; try (apply owed_same, same3_refl).
  set (l := satisfy_content _ _ _). destruct (data_sent k l (fc_fresh K) s) as (P & W & C & Z).
  unfold mbind, st, outs in *. destruct (send_sync_data K k l (fc_fresh K) s) as [[s1 o1] r1]. cbn [fst snd res] in *.
  assert (S (length (nm_erase k (f_pending s))) = length (f_pending s)) as E by (apply nm_erase_length_found; congruence).
  destruct r1 as [[]|x|x|]; cbn [fst snd]; [|split; [rewrite Z by discriminate; rewrite P; lia|exact W]..].
  unfold delete_pending, mmod. cbn [fst snd]. split; [rewrite app_nil_r; cbn; rewrite P; lia|exact W].
Qed.
Lemma owed_satisfy u keys : forall s, owed s (outs (fsatisfy K u keys s)) (st (fsatisfy K u keys s)).
Proof.
  induction keys as [|k keys IH]; intros s; cbn [fsatisfy]; [apply owed_same, same3_refl|].
  apply owed_bind; [apply owed_satisfy_one|auto].
Qed.
Lemma owed_api a s : owed s (outs (api_call K a s)) (st (api_call K a s)).
Proof.
  destruct a as [p|p|p q]; cbn [api_call]; try (apply owed_same, sl_op).
  unfold fp_publish_name. rewrite mbind_get. destruct (get_seq _ _) as [cur|]; [|apply owed_same, same3_refl].
  apply owed_bind; [apply owed_same, sl_op|]. intros _ s1.
  apply owed_bind; [apply owed_same; repeat split; reflexivity|]. intros _ s2. apply owed_satisfy.
Qed.
Lemma owed_apis l : forall s, owed s (outs (api_calls K l s)) (st (api_calls K l s)).
Proof.
  induction l as [|a l IH]; intros s; cbn [api_calls]; [apply owed_same, same3_refl|].
  apply owed_bind; [apply owed_api|auto].
Qed.
Lemma content_owed n buf script s :
  cnt (outs (on_sync_data K n buf script s)) <= length (nm_erase n (f_pending s)) + length (f_waiting s).
Proof.
  unfold on_sync_data, delete_pending. rewrite mbind_mod. set (s1 := fset_pending _ s).
  change (f_waiting s) with (f_waiting s1). change (nm_erase n (f_pending s)) with (f_pending s1). clearbody s1.
  destruct (obind _ _) as [names|e|u|]; try (cbn; lia).
  pose proof (sl_take names s1) as T. unfold mbind at 1. destruct (take_updates names s1) as [[s2 o2] [[|x l]|e|u|]]; destruct T as (A & B & C & D);
    cbn [st outs fst snd] in *; unfold cnt in *; rewrite ?data_of_app, ?D; try (cbn; rewrite ?data_of_app, ?D; cbn; lia).
  unfold mbind at 1, memit at 1. destruct (owed_apis script s2) as [P W]. unfold st, outs in *. unfold mbind at 1.
  destruct (api_calls K script s2) as [[s3 o3] r3]. cbn [fst snd] in P, W. unfold cnt in P. rewrite A in P. rewrite B in W.
  destruct r3 as [[]|e|u|]; cbn [fst snd]; rewrite ?data_of_app, ?D; cbn [data_of app]; try lia.
  unfold draw. rewrite mbind_assoc, mbind_get, mbind_assoc, mbind_mod, mbind_ret, mbind_mod.
  match goal with |- context [process_waiting K ?s3'] => pose proof (cl_waiting K Sk s3') as Q; change (f_waiting s3') with (f_waiting s3) in Q; destruct (process_waiting K s3') as [[s4 o4] r4] end.
  rewrite W in Q. unfold cnt in Q. cbn [outs fst snd app] in *. rewrite ?data_of_app, D. cbn [data_of app]. rewrite ?data_of_app, ?app_length. lia.
Qed.
End Owed.

(** received content answers at most the interests that are pending (but not its own) and those that wait, whatever
    the application does in the update callback *)
Theorem C99_full_node_content : forall K sys evs s o i n buf script s' o' r,
  schemes_ok K -> reaches K sys evs s o -> fetch_of i (f_live s) = Some n ->
  fp_step K (FeContent i buf script) s = (s', o', r) ->
  length (data_of o') + (if nm_mem n (f_pending s) then 1 else 0) <= length (f_pending s) + length (f_waiting s).
Proof.
  intros K sys evs s o i n buf script s' o' r Sk R F E.
  assert (o' = outs (fp_step K (FeContent i buf script) s)) as -> by (rewrite E; reflexivity). clear E.
  cbn [fp_step]. rewrite mbind_get, F, mbind_mod. set (s0 := fset_live _ s).
  pose proof (content_owed K Sk n buf script s0) as H. change (f_waiting s0) with (f_waiting s) in H. change (f_pending s0) with (f_pending s) in H.
  unfold cnt in H. unfold nm_mem. destruct (nm_find n (f_pending s)) eqn:Q.
  - pose proof (nm_erase_length_found n (f_pending s) ltac:(congruence)). lia.
  - pose proof (nm_erase_length_le n (f_pending s)). lia.
Qed.
Print Assumptions C99_full_node_content.

(** ** However often a waiting interest is answered again *)
Local Open Scope N_scope.
Section Amp.
Variable K : fcfg.
Hypothesis Sk : schemes_ok K.
(** how often the entries of the waiting list can still be looked at *)
Fixpoint looks (w : nmap N) : N := match w with [] => 0 | (_, v) :: r => (MAX_TRIES - v) + looks r end.
Definition credit (s : fp) : N := N.of_nat (length (f_pending s)) + looks (f_waiting s).
Definition low (s : fp) : Prop := nm_sorted (f_waiting s) /\ forall n v, nm_find n (f_waiting s) = Some v -> v <= MAX_TRIES.
Lemma looks_set k v (m : nmap N) : nm_sorted m ->
  looks (nm_set k v m) + match nm_find k m with Some w => MAX_TRIES - w | None => 0 end = looks m + (MAX_TRIES - v).
Proof.
  induction m as [|[k' v'] m IH]; intros Hs; cbn [nm_set nm_find looks]; [lia|]. destruct (name_cmp k k') eqn:C.
  - apply name_cmp_eq in C. subst k'. rewrite name_eqb_refl. cbn [looks]. lia.
  - assert (nm_find k ((k', v') :: m) = None) as F.
    { destruct (nm_find k ((k', v') :: m)) as [x|] eqn:F; [|reflexivity]. exfalso.
      pose proof (nm_set_length_found k v ((k', v') :: m) Hs ltac:(congruence)) as X. cbn [nm_set] in X. rewrite C in X. cbn in X. lia. }
    cbn [nm_find] in F. rewrite F. cbn [looks]. lia.
  - destruct (name_eqb k k') eqn:Q; [apply name_eqb_eq in Q; subst; rewrite name_cmp_refl in C; discriminate|].
    cbn [looks]. assert (nm_sorted m) as Hm by (inversion Hs; auto). specialize (IH Hm). lia.
Qed.
Lemma looks_erase k (m : nmap N) : looks (nm_erase k m) <= looks m.
Proof. induction m as [|[k' v'] m IH]; cbn [nm_erase looks]; [lia|]. destruct (name_eqb k k'); cbn [looks]; lia. Qed.
Ltac tot := unfold credit, cnt in *; cbn [outs st fst snd data_of length f_pending f_waiting fset_waiting fset_pending fset_pub mret memit mmod] in *; lia.
Definition amp (c : N) (s : fp) (o : list fout) (s' : fp) : Prop :=
  low s -> low s' /\ N.of_nat (cnt o) + credit s' <= credit s + c.
Definition am {A} (c : N) (m : FM A) : Prop := forall s, amp c s (outs (m s)) (st (m s)).
Lemma amp_trans a b s o s1 o1 s2 : amp a s o s1 -> amp b s1 o1 s2 -> amp (a + b) s (o ++ o1) s2.
Proof.
  intros H1 H2 L. destruct (H1 L) as [L1 A]. destruct (H2 L1) as [L2 B]. split; [exact L2|].
  unfold cnt in *. rewrite data_of_app, app_length, Nat2N.inj_add. lia.
Qed.
Lemma amp_weak a b s o s' : a <= b -> amp a s o s' -> amp b s o s'.
Proof. intros L H Lo. destruct (H Lo). split; [assumption|lia]. Qed.
Lemma am_bind {A B} a b (m : FM A) (f : A -> FM B) : am a m -> (forall x, am b (f x)) -> am (a + b) (mbind m f).
Proof.
  intros Hm Hf s. specialize (Hm s). unfold mbind, st, outs in *. destruct (m s) as [[s1 o1] [x|e|u|]]; cbn [fst snd] in *;
    try (eapply amp_weak; [|exact Hm]; lia).
  specialize (Hf x s1). unfold st, outs in Hf. destruct (f x s1) as [[s2 o2] r2]. cbn [fst snd] in *. eapply amp_trans; eauto.
Qed.
Lemma am_left {A B} a (m : FM A) (f : A -> FM B) : am a m -> (forall x, am 0 (f x)) -> am a (mbind m f).
Proof. intros. replace a with (a + 0) by lia. apply am_bind; auto. Qed.
Lemma am_right {A B} b (m : FM A) (f : A -> FM B) : am 0 m -> (forall x, am b (f x)) -> am b (mbind m f).
Proof. intros. change b with (0 + b). apply am_bind; auto. Qed.
Lemma am_get {B} c (f : fp -> FM B) : (forall s, am c (f s)) -> am c (mbind mget f).
Proof. intros H s. rewrite mbind_get. apply H. Qed.
Lemma am_sl {A} c (m : FM A) : sl m -> am c m.
Proof.
  intros H s L. destruct (H s) as (P & W & _ & D). unfold low, credit, cnt. rewrite P, W, D. split; [exact L|]. tot.
Qed.
Lemma am_lift {A B} c r (f : A -> FM B) : (forall x, am c (f x)) -> am c (mbind (mlift r) f).
Proof. intros H s. rewrite mbind_lift. destruct r; try apply H; (eapply amp_weak with (a := 0); [lia|]; apply (am_sl 0 (mret tt)); apply (rl_ret same3 same3_refl)). Qed.
Lemma am_ret {A} c (x : A) : am c (mret x). Proof. apply am_sl. apply (rl_ret same3 same3_refl). Qed.
Lemma am_raw {A} c (r : outcome A) : am c (mlift r). Proof. apply am_sl. apply (rl_lift same3 same3_refl). Qed.
Lemma am_weak {A} a b (m : FM A) : a <= b -> am a m -> am b m.
Proof. intros L H s. eapply amp_weak; [exact L|apply H]. Qed.
Lemma am_emit c d : 1 <= c -> am c (memit [FoData d]).
Proof. intros Hc s L. split; [exact L|]. tot. Qed.
Lemma low_set n v s : low s -> v <= MAX_TRIES -> low (fset_waiting (nm_set n v (f_waiting s)) s).
Proof.
  intros [A B] L. split; cbn; [apply nm_set_sorted; exact A|]. intros m w. rewrite nm_find_set.
  destruct (name_eqb m n); [intros [= <-]; exact L|apply B].
Qed.
Lemma low_drop n s : low s -> low (fset_waiting (nm_erase n (f_waiting s)) s).
Proof. intros [A B]. split; cbn; [apply nm_erase_sorted; exact A|]. intros m w H. eapply B. eapply nm_find_erase_sub; [exact A|exact H]. Qed.
Lemma am_mark n c : am c (mark_waiting n).
Proof.
  intros s L. rewrite mark_eq. cbn [outs st fst snd]. unfold marked. destruct (nm_find n (f_waiting s)) as [w|] eqn:F; [|split; [exact L|tot]].
  split; [apply low_set; [exact L|lia]|]. unfold credit. cbn [f_pending f_waiting fset_waiting cnt data_of length].
  pose proof (looks_set n MAX_TRIES (f_waiting s) (proj1 L)). rewrite F in H. tot.
Qed.
Lemma am_start n : am MAX_TRIES (start_waiting K n).
Proof.
  unfold start_waiting. apply am_left; [|intros _; apply am_sl, sl_schedule]. intros s L. unfold mmod. cbn [outs st fst snd].
  split; [apply low_set; [exact L|unfold MAX_TRIES; lia]|]. unfold credit. cbn [f_pending f_waiting fset_waiting cnt data_of length].
  pose proof (looks_set n 0 (f_waiting s) (proj1 L)) as H. tot.
Qed.
Lemma am_erase n c : am c (delete_pending n).
Proof.
  intros s L. unfold delete_pending, mmod. cbn [outs st fst snd]. split; [exact L|]. unfold credit. cbn [f_pending f_waiting fset_pending cnt data_of length].
  pose proof (nm_erase_length_le n (f_pending s)). tot.
Qed.
Lemma am_data n l f : am 1 (send_sync_data K n l f).
Proof.
  intros s L. destruct (data_sent K Sk n l f s) as (P & W & C & _). unfold low, credit. rewrite P, W. split; [exact L|]. lia.
Qed.
Lemma am_decoded n l (timed : bool) t d : am (if timed then 1 else MAX_TRIES) (on_decoded K n l timed t d).
Proof.
  assert (1 <= if timed then 1 else MAX_TRIES) as One by (destruct timed; unfold MAX_TRIES; lia).
  unfold on_decoded. apply am_get. intros s0. cbv zeta.
  assert (am (if timed then 1 else MAX_TRIES) (mlet l0 <- offered K (negative d) (positive d); match l0 with [] => mret tt | _ :: _ => send_sync_data K n l0 (fc_fresh K) ;; mark_waiting n end)) as H.
  { apply (am_weak 1); [exact One|]. apply am_right; [apply am_sl, sl_offered|intros [|hd0 tl0]; [apply am_ret|]]. apply am_left; [apply am_data|intros _; apply am_mark]. }
  destruct (positive d); [|exact H]. destruct (negative d).
  - apply am_left; [|intros _; destruct timed; [apply am_mark|apply am_ret]]. apply (am_weak 1); [exact One|].
    intros s L. unfold mmod. cbn [outs st fst snd]. split; [exact L|]. unfold credit. cbn [f_pending f_waiting fset_pending cnt data_of length].
    unfold add_fpending. destruct (nm_find n (f_pending s)); match goal with |- context [nm_set ?k ?v ?m] => pose proof (nm_set_length_le k v m) end; tot.
  - destruct timed, (nm_find n (f_waiting s0)); try apply am_ret; [|apply am_start]. destruct (1 <? _); [apply am_mark|apply am_ret].
Qed.
Lemma am_undecodable n (timed : bool) rcvd d : am (if timed then 1 else MAX_TRIES) (on_undecodable K n timed rcvd d).
Proof.
  assert (1 <= if timed then 1 else MAX_TRIES) as One by (destruct timed; unfold MAX_TRIES; lia).
  unfold on_undecodable. apply am_get. intros s0. cbv zeta. destruct (_ <? rcvd).
  - destruct timed, (nm_find n (f_waiting s0)); try apply am_ret; [|apply am_start]. destruct (1 <? _); [|apply am_ret].
    apply am_right; [apply am_mark|intros _; apply am_sl, sl_send, Sk].
  - destruct (_ && _ && _); [apply am_ret|]. apply am_left; [|intros _; apply am_mark]. destruct (entire_state _); [apply am_ret|].
    apply am_left; [apply (am_weak 1); [exact One|apply am_data]|intros _; apply am_erase].
Qed.
Lemma am_interest n l (timed : bool) : am (if timed then 1 else MAX_TRIES) (on_finterest K n l timed).
Proof.
  assert (1 <= if timed then 1 else MAX_TRIES) as One by (destruct timed; unfold MAX_TRIES; lia).
  unfold on_finterest. apply am_get. intros s. destruct (reply_from_store n (f_pub s)); [apply am_emit; exact One|].
  cbv zeta. destruct (Nat.eqb _ 4).
  { unfold fp_send_nack. apply am_get. intros s1. apply am_lift. intros dn. apply am_right; [|intros _; apply am_emit; exact One].
    intros s2 L. split; [exact L|]. tot. }
  destruct (negb _); [apply am_ret|]. do 3 (apply am_lift; intros ?). destruct (initialize _ _ _ _) as [t [u|e|u|]]; try apply am_ret; try apply am_raw.
  apply am_lift. intros d. destruct (can_decode d); [apply am_decoded|apply am_undecodable].
Qed.
Lemma am_drop n c : am c (mmod (fun s => fset_waiting (nm_erase n (f_waiting s)) s)).
Proof.
  intros s L. unfold mmod. cbn [outs st fst snd]. split; [apply low_drop; exact L|]. unfold credit. cbn [f_pending f_waiting fset_waiting cnt data_of length].
  pose proof (looks_erase n (f_waiting s)). tot.
Qed.
Lemma am_one n : am 0 (process_one K n).
Proof.
  intros s. unfold process_one. rewrite mbind_get. destruct (nm_find n (f_waiting s)) as [v|] eqn:F; [|apply am_ret].
  cbv zeta. destruct (N.eqb_spec v MAX_TRIES) as [->|Nv]; [apply am_drop|]. rewrite mbind_mod. set (s1 := fset_waiting _ s).
  assert (am 1 (on_finterest K n DEFAULT_LIFETIME true ;; mlet s1 <- mget;
      match nm_find n (f_waiting s1) with
      | Some tries1 => if tries1 =? MAX_TRIES then mmod (fun s => fset_waiting (nm_erase n (f_waiting s)) s) else mret tt
      | None => mret tt
      end)) as H.
  { apply am_left; [apply (am_interest n DEFAULT_LIFETIME true)|intros _]. apply am_get. intros s2.
    destruct (nm_find n (f_waiting s2)) as [w|]; [|apply am_ret]. destruct (w =? MAX_TRIES); [apply am_drop|apply am_ret]. }
  specialize (H s1). intros L. assert (v < MAX_TRIES) as Lv by (pose proof (proj2 L n v F); lia).
  assert (low s1) as L1 by (apply low_set; [exact L|lia]).
  destruct (H L1) as [L2 A]. split; [exact L2|].
  assert (credit s1 + 1 <= credit s) as C; [|lia]. unfold credit. cbn [s1 f_pending f_waiting fset_waiting].
  pose proof (looks_set n (v + 1) (f_waiting s) (proj1 L)) as X. rewrite F in X. lia.
Qed.
Lemma am_all keys : am 0 (process_all K keys).
Proof. induction keys as [|k keys IH]; cbn [process_all]; [apply am_ret|]. apply am_right; [apply am_one|intros _; exact IH]. Qed.
Lemma am_process : am 0 (process_waiting K).
Proof. unfold process_waiting. apply am_get. intros s. apply am_all. Qed.
Lemma am_apis l : am 0 (api_calls K l).
Proof.
  intros s L. destruct (owed_apis K Sk l s) as [A B]. unfold low, credit. rewrite B. split; [exact L|]. lia.
Qed.
Lemma am_set c (f : fp -> fp) : (forall s, f_pending (f s) = f_pending s /\ f_waiting (f s) = f_waiting s) -> am c (mmod f).
Proof. intros H s L. unfold mmod, low, credit. cbn [outs st fst snd]. destruct (H s) as [-> ->]. split; [exact L|tot]. Qed.
Lemma am_step e : am (if is_finterest e then MAX_TRIES else 0) (fp_step K e).
Proof.
  destruct e as [a|m l|i buf script|i face|i timeout|dt|t| | |key|i]; cbn [fp_step is_finterest].
  - intros s L. destruct (owed_api K Sk a s) as [A B]. unfold low, credit. rewrite B. split; [exact L|]. lia.
  - destruct (is_prefix _ _); [apply (am_interest m l false)|apply am_ret].
  - apply am_get. intros s. destruct (fetch_of i (f_live s)) as [m|]; [|apply am_ret]. apply am_right; [apply am_set; auto|intros _].
    unfold on_sync_data. apply am_right; [apply am_erase|intros _]. destruct (obind _ _) as [names|e|u|]; try apply am_ret; try apply am_raw.
    apply am_right; [apply am_sl, sl_take|intros [|x l]].
    + apply am_right; [apply am_set; auto|intros _]. apply am_right; [apply am_sl, sl_draw|intros j]. apply am_set; auto.
    + apply am_right; [apply am_sl; intros s1; repeat split; reflexivity|intros _]. apply am_right; [apply am_apis|intros _].
      apply am_right; [apply am_sl, sl_draw|intros j]. apply am_right; [apply am_set; auto|intros _; apply am_process].
  - apply am_get. intros s. destruct (fetch_of _ _); [apply am_set; auto|apply am_ret].
  - apply am_get. intros s. destruct (fetch_of _ _); [|apply am_ret]. apply am_right; [apply am_set; auto|intros _].
    destruct timeout; apply am_set; auto.
  - apply am_set; auto.
  - apply am_set; auto.
  - apply am_get. intros s. destruct (f_sched s) as [[dl k]|]; [|apply am_ret]. destruct (dl <=? _); [|apply am_ret].
    apply am_right; [apply am_set; auto|intros _]. destruct k; [|apply am_right; [apply am_set; auto|intros _]]; apply am_sl, sl_send, Sk.
  - apply am_get. intros s. destruct (f_delay s) as [dl|]; [|apply am_ret]. destruct (dl <=? _); [|apply am_ret].
    apply am_right; [apply am_set; auto|intros _]. apply am_right; [apply am_process|intros _; apply am_sl, sl_schedule].
  - intros s L. unfold mmod. cbn [outs st fst snd]. destruct (nm_find key (f_pending s)) as [e|]; [|split; [exact L|tot]].
    destruct (fe_expiry e <=? f_now s); [|split; [exact L|tot]]. split; [exact L|]. unfold credit. cbn [f_pending f_waiting fset_pending].
    pose proof (nm_erase_length_le key (f_pending s)). tot.
  - apply am_set; auto.
Qed.
End Amp.
(** whatever happens, a full-sync node sends at most 65535 data packets per interest it receives: it looks at a waiting
    interest that often at most *)
Theorem C99_full_node_bounded : forall K sys evs s o, schemes_ok K -> reaches K sys evs s o ->
  N.of_nat (length (data_of o)) <= 65535 * N.of_nat (finterests_in evs).
Proof.
  intros K sys evs s o Sk R.
  assert (low s /\ N.of_nat (cnt o) + credit s <= MAX_TRIES * N.of_nat (finterests_in evs)) as [_ H]; [|unfold MAX_TRIES, cnt in H; lia].
  revert s o R. induction evs as [|e evs IH] using rev_ind; intros s o R.
  - apply reaches_nil in R as (n & _ & -> & ->). split; [split; [apply nm_sorted_nil|discriminate]|cbn; lia].
  - apply reaches_inv in R as (s1 & o1 & R1 & _ & -> & -> & _). destruct (IH s1 o1 R1) as [L Z].
    destruct (am_step K Sk e s1 L) as [L2 Z2]. split; [exact L2|].
    rewrite finterests_in_app. unfold cnt in *. rewrite data_of_app, app_length, !Nat2N.inj_add.
    destruct e; cbn [is_finterest finterests_in] in *; lia.
Qed.
Print Assumptions C99_full_node_bounded.

(** hypotheses: content arrives while an interest is pending, and the application publishes in the callback *)
Local Open Scope nat_scope.
Definition s_99o : fp := Eval vm_compute in fst (full_after Kf [FeApi (AAdd pa); FeInterest blank_ask 1000]).
Definition o_99o : list fout := Eval vm_compute in snd (full_after Kf [FeApi (AAdd pa); FeInterest blank_ask 1000]).
Example C99_content_example : exists n, schemes_ok Kf /\ reaches Kf 0 [FeApi (AAdd pa); FeInterest blank_ask 1000] s_99o o_99o /\
  fetch_of 0 (f_live s_99o) = Some n /\ length (f_pending s_99o) = 1.
Proof.
  eexists. split; [apply Kf_ok|]. split; [split; [|vm_compute; reflexivity]|split; reflexivity].
  repeat constructor; apply wf_nil; reflexivity.
Qed.
(** hypotheses of the bound: two interests, answered more often than that *)
Example C99_bounded_example : exists s o, schemes_ok Kf /\ reaches Kf 0 evs_99 s o /\ finterests_in evs_99 < length (data_of o).
Proof.
  eexists _, _. split; [apply Kf_ok|]. split; [apply (reaches_example Kf evs_99); [repeat constructor|vm_compute; reflexivity]|]. vm_compute. lia.
Qed.
