(** What every handler of a full-sync node does, as a chain of elementary changes: a relation between
    the state before, the observations and the state after that contains the elementary changes and
    is closed under composition holds of every event. *)
From Coq Require Import List NArith ZArith Bool Arith Lia.
From Verif Require Import Base BaseFacts Mon MonFacts Iblt Tlv TlvFacts State NMap NMapFacts Codec Store Producer
  Partial PartialFacts Full.
Import ListNotations.
Local Open Scope N_scope.

(** the operations among the observations *)
Fixpoint ops_of (o : list fout) : list cop :=
  match o with
  | [] => []
  | FoOp x :: r => x :: ops_of r
  | _ :: r => ops_of r
  end.
Lemma ops_of_app a b : ops_of (a ++ b) = ops_of a ++ ops_of b.
Proof. induction a as [|[]]; simpl; auto. rewrite IHa. reflexivity. Qed.
Lemma ops_of_data l : ops_of (map FoData l) = [].
Proof. induction l; auto. Qed.

Lemma jitter_bounds E i : MIN_JITTER <= jitter_of E i <= MAX_JITTER.
Proof.
  unfold jitter_of, MIN_JITTER, MAX_JITTER. change (500 - 100 + 1) with 401.
  pose proof (N.mod_lt (en_jitter E i) 401). lia.
Qed.

(** an interest whose last two components, after the sync prefix, are an IBF and a count *)
Definition names_ibf (K : fcfg) (n : name) (t : table) (rcvd : N) : Prop :=
  length (skipn (length (fc_sync K)) n) = 2%nat /\ exists c c1, name_get_back n 2 = Ok c /\ name_get_back n 1 = Ok c1 /\ to_number c1 = Ok rcvd /\
    initialize (fc_codec K) (fc_scheme K) (iblt_new (fc_n K)) c = (t, Ok tt).

(** the name a call of publishName announces *)
Definition announced (okop : cop -> Prop) (u : name) : Prop :=
  exists p q cur, u = append_number p (publish_seq cur q) /\ okop (CPublish p q).
(** why a node in state [s] sends the names [l] for the interest [n], with freshness [f] *)
Inductive data_why (K : fcfg) (okop : cop -> Prop) : fp -> name -> list name -> N -> Prop :=
| why_offer s0 s o n t rcvd d l : names_ibf K n t rcvd -> iblt_sub (fc_fuel K) (k_iblt (f_core s0)) t = Ok d ->
    can_decode d = true -> offered K (negative d) (positive d) s0 = (s, o, Ok l) ->
    data_why K okop s n l (fc_fresh K)
| why_all s n t rcvd d : names_ibf K n t rcvd -> iblt_sub (fc_fuel K) (k_iblt (f_core s)) t = Ok d ->
    can_decode d = false -> data_why K okop s n (entire_state (f_core s)) FULL_STATE_FRESH
| why_pending s n e d u : nm_find n (f_pending s) = Some e ->
    iblt_sub (fc_fuel K) (k_iblt (f_core s)) (fe_iblt e) = Ok d -> announced okop u ->
    data_why K okop s n (satisfy_content (k_bimap (f_core s)) u (positive d)) (fc_fresh K).

(** why it publishes the content [b] *)
Definition content_why (K : fcfg) (okop : cop -> Prop) (s : fp) (n : name) (b : bytes) (f : N) : Prop :=
  exists s0 l, data_why K okop s0 n l f /\ f_core s = f_core s0 /\ f_pending s = f_pending s0 /\
    compress (fc_codec K) (fc_cscheme K) (encode_names l) = Ok b.

Section Trace.
Variable K : fcfg.
Variable okop : cop -> Prop.
Variable R : fp -> list fout -> fp -> Prop.

Record closed : Prop := mkClosed {
  c_refl : forall s, R s [] s;
  c_trans : forall s o s1 o1 s2, R s o s1 -> R s1 o1 s2 -> R s (o ++ o1) s2;
  c_draw : forall s, R s [] (fset_draws (S (f_draws s)) s);
  c_op : forall s o k, okop o -> cstep (f_core s) o = Ok k -> R s [FoOp o] (fset_core k s);
  c_reply : forall s n d, reply_from_store n (f_pub s) = Some d -> R s [FoData d] s;
  c_publish : forall s n b f, content_why K okop s n b f -> R s
    (map FoData match snd (publish (fc_env K) (f_now s) n n b f (f_pub s)) with Ok l => l | _ => [] end)
    (fset_pub (fst (publish (fc_env K) (f_now s) n n b f (f_pub s))) s);
  c_nack : forall s dn, append_ibf (fc_codec K) (fc_scheme K) (fc_sync K) (k_iblt (f_core s)) = Ok dn ->
    R s [FoData (nack_data (fc_env K) (pb_signed (f_pub s)) (fc_fresh K) dn)]
        (fset_pub (count_signed (f_pub s)) s);
  c_send : forall s, R s (outs (send_sync_interest K s)) (st (send_sync_interest K s));
  c_data : forall s n l f, data_why K okop s n l f -> R s (outs (send_sync_data K n l f s)) (st (send_sync_data K n l f s));
  c_erase : forall s n, R s [] (fset_pending (nm_erase n (f_pending s)) s);
  c_pend : forall s n t rcvd x, names_ibf K n t rcvd ->
    R s [] (fset_pending (add_fpending n t x (f_pending s)) s);
  c_wadd : forall s n t rcvd, names_ibf K n t rcvd -> nm_find n (f_waiting s) = None ->
    R s (outs (start_waiting K n s)) (st (start_waiting K n s));
  c_wmark : forall s n v, nm_find n (f_waiting s) = Some v ->
    R s [] (fset_waiting (nm_set n MAX_TRIES (f_waiting s)) s);
  c_wtry : forall s n v, nm_find n (f_waiting s) = Some v -> v <> MAX_TRIES ->
    R s [] (fset_waiting (nm_set n (v + 1) (f_waiting s)) s);
  c_werase : forall s n, nm_find n (f_waiting s) = Some MAX_TRIES ->
    R s [] (fset_waiting (nm_erase n (f_waiting s)) s);
  c_arm : forall s, R s (outs (schedule_waiting K s)) (st (schedule_waiting K s));
  c_nowait : forall s, R s [] (fset_wait false s);
  c_soon : forall s j, MIN_JITTER <= j <= MAX_JITTER ->
    R s [] (fset_wait false (fset_sched (Some (f_now s + j, KSend)) s));
  c_store : forall s i, R s [] (fset_pub (pub_fire (f_now s) i (f_pub s)) s) }.

(** the changes made by the event loop itself *)
Record closed_events : Prop := mkClosedEvents {
  e_update : forall s l, R s [FoUpdate l] s;
  e_incoming : forall s x, R s [] (fset_incoming x s);
  e_sched : forall s x, R s [] (fset_sched x s);
  e_wait : forall s b, R s [] (fset_wait b s);
  e_finished : forall s i n, fetch_of i (f_live s) = Some n -> R s [] (fset_live (without i (f_live s)) s) }.

Definition tr {A} (s : fp) (m : FM A) : Prop := R s (outs (m s)) (st (m s)).

Hypothesis C : closed.
Hypothesis okop_add : forall p, okop (CAdd p).
Hypothesis okop_update : forall p v, v < two64 -> okop (CUpdate p v).

Lemma tr_ret {A} s (a : A) : tr s (mret a). Proof. apply C. Qed.
Lemma tr_lift {A} s (r : outcome A) : tr s (mlift r). Proof. apply C. Qed.
Lemma tr_bind {A B} s (m : FM A) (f : A -> FM B) :
  tr s m -> (forall s1 o1 a, m s = (s1, o1, Ok a) -> tr s1 (f a)) -> tr s (mbind m f).
Proof.
  unfold tr, mbind, st, outs. intros Hm Hf. destruct (m s) as [[s1 o1] [a|e|u|]]; auto.
  specialize (Hf s1 o1 a eq_refl). destruct (f a s1) as [[s2 o2] r2]. simpl in *.
  eapply c_trans; eauto.
Qed.
Lemma tr_get {B} s (f : fp -> FM B) : tr s (f s) -> tr s (mbind mget f).
Proof. unfold tr. rewrite mbind_get. auto. Qed.
Lemma tr_mlift {A B} s (r : outcome A) (f : A -> FM B) :
  (forall a, r = Ok a -> tr s (f a)) -> tr s (mbind (mlift r) f).
Proof. unfold tr. rewrite mbind_lift. destruct r; intros H; try apply C. apply H. reflexivity. Qed.
Lemma tr_mod {B} s g (f : unit -> FM B) : R s [] (g s) -> tr (g s) (f tt) -> tr s (mbind (mmod g) f).
Proof.
  unfold tr. rewrite mbind_mod. intros H1 H2.
  change (outs (f tt (g s))) with ([] ++ outs (f tt (g s))). eapply c_trans; eauto.
Qed.
Lemma tr_mod1 s g : R s [] (g s) -> tr s (mmod g). Proof. auto. Qed.
Lemma tr_seq {A B} s (m : FM A) (m' : FM B) : tr s m -> (forall s1, tr s1 m') -> tr s (m ;; m').
Proof. intros H1 H2. apply tr_bind; auto. Qed.

Lemma tr_op s o : okop o -> tr s (fp_op o).
Proof.
  intros Ho. unfold fp_op. apply tr_get. apply tr_mlift. intros k E. unfold tr. rewrite mbind_mod.
  eapply c_op; eauto.
Qed.
Lemma tr_prefix_seq s p : tr s (prefix_seq p).
Proof.
  unfold prefix_seq. apply tr_get. destruct (get_seq p (f_core s)); [apply tr_ret|].
  apply tr_seq; [apply tr_op; auto|intros; apply tr_ret].
Qed.
Lemma tr_draw s : tr s (draw K).
Proof. unfold draw. apply tr_get. apply tr_mod; [apply C|apply tr_ret]. Qed.
Lemma tr_send s : tr s (send_sync_interest K). Proof. apply C. Qed.
Lemma tr_data s n l f : data_why K okop s n l f -> tr s (send_sync_data K n l f). Proof. apply C. Qed.
Lemma tr_delete s n : tr s (delete_pending n). Proof. apply tr_mod1. apply C. Qed.
Lemma tr_fsatisfy u keys : announced okop u -> forall s, tr s (fsatisfy K u keys).
Proof.
  intros Hu. induction keys as [|k keys IH]; intros s; simpl; [apply tr_ret|]. apply tr_seq; auto.
  unfold fsatisfy_one. apply tr_get. destruct (nm_find k (f_pending s)) as [e|] eqn:Ek; [|apply tr_ret].
  apply tr_mlift. intros d Hd. apply tr_seq; [apply tr_data; eapply why_pending; eauto|intros; apply tr_delete].
Qed.
Lemma tr_publish_name s p q : okop (CPublish p q) -> tr s (fp_publish_name K p q).
Proof.
  intros Ho. unfold fp_publish_name. apply tr_get. destruct (get_seq p (f_core s)) as [cur|]; [|apply tr_ret].
  apply tr_seq; [apply tr_op; auto|]. intros s1. apply tr_mod; [apply C|]. apply tr_fsatisfy. exists p, q, cur. auto.
Qed.
Definition api_op (a : api) : cop :=
  match a with AAdd p => CAdd p | ARemove p => CRemove p | APublish p q => CPublish p q end.
Lemma tr_api s a : okop (api_op a) -> tr s (api_call K a).
Proof.
  intros Ho. destruct a as [p|p|p q]; cbn [api_call]; [apply tr_op; auto|apply tr_op; auto|].
  apply tr_publish_name; auto.
Qed.
Lemma tr_apis l : forall s, Forall (fun a => okop (api_op a)) l -> tr s (api_calls K l).
Proof.
  induction l as [|a l IH]; intros s H; simpl; [apply tr_ret|]. inversion H; subst.
  apply tr_seq; [apply tr_api; auto|auto].
Qed.
Lemma tr_schedule s : tr s (schedule_waiting K).
Proof. apply C. Qed.
Lemma tr_future s p neg : tr s (is_future K p neg).
Proof.
  unfold is_future. apply tr_mlift. intros u _. apply tr_bind; [apply tr_prefix_seq|intros; apply tr_ret].
Qed.
Lemma tr_offered neg hs : forall s, tr s (offered K neg hs).
Proof.
  induction hs as [|h hs IH]; intros s; simpl; [apply tr_ret|]. apply tr_get.
  destruct (bm_left h _); auto. apply tr_bind; [apply tr_prefix_seq|]. intros s1 o1 v _.
  apply tr_bind; [destruct (v =? 0); [apply tr_ret|apply tr_future]|]. intros s2 o2 b _.
  apply tr_bind; auto. intros. apply tr_ret.
Qed.
Lemma tr_mark s n : tr s (mark_waiting n).
Proof. apply tr_mod1. destruct (nm_find n (f_waiting s)) eqn:E; [eapply C; eauto|apply C]. Qed.
Lemma tr_start s n t rcvd : names_ibf K n t rcvd -> nm_find n (f_waiting s) = None ->
  tr s (start_waiting K n).
Proof. apply C. Qed.
Lemma tr_undecodable s n timed rcvd d t : names_ibf K n t rcvd ->
  iblt_sub (fc_fuel K) (k_iblt (f_core s)) t = Ok d -> can_decode d = false -> tr s (on_undecodable K n timed rcvd d).
Proof.
  intros Hn Hd Hc. unfold on_undecodable. apply tr_get. destruct (_ <? rcvd).
  - destruct timed, (nm_find n (f_waiting s)) as [tries|] eqn:Ew; try apply tr_ret; [|eapply tr_start; eauto].
    destruct (1 <? tries); [|apply tr_ret]. apply tr_seq; [apply tr_mark|intros; apply tr_send].
  - destruct (_ && _); [apply tr_ret|]. apply tr_seq; [|intros; apply tr_mark].
    destruct (entire_state (f_core s)) eqn:En; [apply tr_ret|].
    apply tr_seq; [apply tr_data; rewrite <- En; eapply why_all; eauto|intros; apply tr_delete].
Qed.
Lemma tr_decoded s n l timed t d rcvd : names_ibf K n t rcvd ->
  iblt_sub (fc_fuel K) (k_iblt (f_core s)) t = Ok d -> can_decode d = true -> tr s (on_decoded K n l timed t d).
Proof.
  intros Hn Hd Hc. unfold on_decoded. apply tr_get.
  assert (tr s (mlet l0 <- offered K (negative d) (positive d);
    match l0 with [] => mret tt | _ :: _ => send_sync_data K n l0 (fc_fresh K) ;; mark_waiting n end)) as H.
  { apply tr_bind; [apply tr_offered|]. intros s1 o1 [|a l0] Eo; [apply tr_ret|].
    apply tr_seq; [apply tr_data; eapply why_offer; eauto|intros; apply tr_mark]. }
  destruct (positive d) as [|h hs]; [|destruct (negative d); apply H].
  destruct (negative d) as [|g gs].
  - apply tr_mod; [eapply C; eauto|]. destruct timed; [apply tr_mark|apply tr_ret].
  - destruct timed, (nm_find n (f_waiting s)) as [tries|] eqn:Ew; try apply tr_ret; [|eapply tr_start; eauto].
    destruct (1 <? tries); [|apply tr_ret]. apply tr_mark.
Qed.
Lemma tr_finterest s n l timed : tr s (on_finterest K n l timed).
Proof.
  unfold on_finterest. apply tr_get. destruct (reply_from_store n (f_pub s)) as [d|] eqn:Er.
  { unfold tr. eapply c_reply; eauto. }
  cbv zeta. destruct (Nat.eqb _ 4).
  { unfold fp_send_nack. apply tr_get. apply tr_mlift. intros dn E. unfold tr. rewrite mbind_mod.
    apply (c_nack C). exact E. }
  destruct (Nat.eqb_spec (length (skipn (length (fc_sync K)) n)) 2) as [L2|L2]; cbn [negb]; [|apply tr_ret].
  apply tr_mlift. intros c Hc. apply tr_mlift. intros c1 Hc1. apply tr_mlift. intros rcvd Hr.
  destruct (initialize _ _ _ _) as [t [u|e|u|]] eqn:Ei; try apply tr_lift; try apply tr_ret.
  destruct u. assert (names_ibf K n t rcvd) as Hn by (split; [exact L2|exists c, c1; auto]).
  apply tr_mlift. intros d Hd.
  destruct (can_decode d) eqn:Cd; [eapply tr_decoded; eauto|eapply tr_undecodable; eauto].
Qed.
Lemma tr_process_one s n : tr s (process_one K n).
Proof.
  unfold process_one. apply tr_get. destruct (nm_find n (f_waiting s)) as [tries|] eqn:E; [|apply tr_ret].
  cbv zeta. destruct (N.eqb_spec tries MAX_TRIES) as [->|Ht]; [apply tr_mod1; apply C; exact E|].
  apply tr_mod; [apply C; auto|].
  apply tr_seq; [apply tr_finterest|]. intros s1. apply tr_get.
  destruct (nm_find n (f_waiting s1)) as [x|] eqn:E1; [|apply tr_ret].
  destruct (N.eqb_spec x MAX_TRIES) as [->|]; [apply tr_mod1; apply C; exact E1|apply tr_ret].
Qed.
Lemma tr_process_all keys : forall s, tr s (process_all K keys).
Proof.
  induction keys as [|k keys IH]; intros s; simpl; [apply tr_ret|].
  apply tr_seq; [apply tr_process_one|auto].
Qed.
Lemma tr_process s : tr s (process_waiting K).
Proof. unfold process_waiting. apply tr_get. apply tr_process_all. Qed.
Lemma tr_take names : forall s, tr s (take_updates names).
Proof.
  induction names as [|c names IH]; intros s; simpl; [apply tr_ret|].
  apply tr_mlift. intros last _. apply tr_mlift. intros v Hv. apply tr_get.
  destruct (match get_seq _ _ with None => true | Some cur => cur <? v end); auto.
  apply tr_bind; [apply tr_prefix_seq|]. intros s1 o1 cur _. 
  apply tr_seq; [apply tr_op; apply okop_update; eapply to_number_lt; eauto|].
  intros s2. apply tr_bind; auto. intros; apply tr_ret.
Qed.

(** the operations an event asks for *)
Definition ev_ops (e : fev) : list cop :=
  match e with
  | FeApi a => [api_op a]
  | FeContent _ _ script => map api_op script
  | _ => []
  end.
(** calls, interests and clean-up *)
Definition plain (e : fev) : Prop :=
  match e with
  | FeApi _ | FeInterest _ _ | FeSegment _ _ | FeExpire _ | FeStore _ => True
  | _ => False
  end.
Lemma tr_step_plain s e : (forall x, R s [] (fset_incoming x s)) -> Forall okop (ev_ops e) -> plain e -> tr s (fp_step K e).
Proof.
  intros Hi Ho He. destruct e as [a|n l|i buf script|i face|i timeout|dt|t| | |key|i];
    try contradiction; cbn [fp_step ev_ops] in *.
  - apply tr_api. inversion Ho; auto.
  - destruct (is_prefix _ _); [apply tr_finterest|apply tr_ret].
  - apply tr_get. destruct (fetch_of i (f_live s)) as [n|] eqn:E; [|apply tr_ret].
    apply tr_mod1. apply Hi.
  - apply tr_mod1. destruct (nm_find key (f_pending s)) as [e|]; [|apply C].
    destruct (fe_expiry e <=? _); apply C.
  - apply tr_mod1. apply C.
Qed.

(** what happens after the callback *)
Lemma tr_after s script : Forall (fun a => okop (api_op a)) script ->
  tr s (api_calls K script ;; mlet j <- draw K;
        mmod (fun s => fset_wait false (fset_sched (Some (f_now s + j, KSend)) s)) ;; process_waiting K).
Proof.
  intros Hs. apply tr_seq; [apply tr_apis; auto|]. intros s4.
  apply tr_bind; [apply tr_draw|]. intros s5 o5 j Ej. apply tr_mod; [|apply tr_process].
  apply (c_soon C). unfold draw in Ej. rewrite mbind_get, mbind_mod in Ej. injection Ej as _ _ <-.
  apply jitter_bounds.
Qed.
Hypothesis V : closed_events.
Lemma tr_on_data s n buf script : Forall (fun a => okop (api_op a)) script ->
  tr s (on_sync_data K n buf script).
Proof.
  intros Hs. unfold on_sync_data. apply tr_seq; [apply tr_delete|]. intros s1.
  destruct (obind _ _) as [names|e|u|]; try apply tr_ret; try apply tr_lift.
  apply tr_bind; [apply tr_take|]. intros s2 o2 [|m l] _.
  - apply tr_mod; [apply V|]. apply tr_bind; [apply tr_draw|]. intros s3 o3 j _. apply tr_mod1. apply V.
  - apply tr_seq; [apply V|]. intros s3. apply tr_after; auto.
Qed.
(** events other than the passage of time and the timer of the waiting list *)
Definition internal (e : fev) : Prop :=
  match e with FeDelay | FeTick _ | FeClock _ => False | _ => True end.
Lemma tr_step_but s e : internal e -> Forall okop (ev_ops e) -> tr s (fp_step K e).
Proof.
  intros Hd Ho. destruct e as [a|n l|i buf script|i face|i timeout|dt|t| | |key|i];
    try (apply tr_step_plain; [intros; apply V|exact Ho|exact I]); cbn [fp_step ev_ops] in *.
  - apply tr_get. destruct (fetch_of i (f_live s)) as [n|] eqn:E; [|apply tr_ret].
    apply tr_mod; [eapply V; eauto|]. apply tr_on_data. rewrite Forall_map in Ho. exact Ho.
  - apply tr_get. destruct (fetch_of i (f_live s)) as [n|] eqn:E; [|apply tr_ret].
    apply tr_mod; [eapply V; eauto|]. destruct timeout; [apply tr_ret|].
    apply tr_bind; [apply tr_draw|]. intros s1 o1 j _. apply tr_mod1. apply V.
  - contradiction.
  - contradiction.
  - apply tr_get. destruct (f_sched s) as [[dl k]|]; [|apply tr_ret]. destruct (dl <=? _); [|apply tr_ret].
    apply tr_mod; [apply V|]. destruct k; [apply tr_send|]. apply tr_mod; [apply V|apply tr_send].
  - contradiction.
Qed.
Hypothesis Hdelay : forall s, R s [] (fset_delay None s).
Hypothesis Htime : forall s a b, R s [] (fset_time a b s).
Theorem tr_step s e : Forall okop (ev_ops e) -> tr s (fp_step K e).
Proof.
  intros Ho. destruct e as [a|n l|i buf script|i face|i timeout|dt|t| | |key|i];
    try (apply tr_step_but; [exact I|exact Ho]); cbn [fp_step ev_ops] in *.
  - apply tr_mod1. apply Htime.
  - apply tr_mod1. apply Htime.
  - apply tr_get. destruct (f_delay s) as [dl|]; [|apply tr_ret]. destruct (dl <=? _); [|apply tr_ret].
    apply tr_mod; [apply Hdelay|]. apply tr_seq; [apply tr_process|intros; apply tr_schedule].
Qed.
Theorem tr_run evs : forall s s' o, Forall okop (flat_map ev_ops evs) ->
  fp_run K s evs = Some (s', o) -> R s o s'.
Proof.
  induction evs as [|e evs IH]; intros s s' o Ho; unfold fp_run; cbn [run].
  - intros [= <- <-]. apply C.
  - cbn [flat_map] in Ho. apply Forall_app in Ho as [H1 H2]. pose proof (tr_step s e H1) as T.
    unfold tr, st, outs in T. destruct (fp_step K e s) as [[s1 o1] [u|x|u|]]; try discriminate; simpl in T;
      (destruct (run (fp_step K) s1 evs) as [[s2 o2]|] eqn:Q; [|discriminate]);
      intros [= <- <-]; (eapply c_trans; [exact C|exact T|]); eapply IH; eauto.
Qed.
End Trace.
