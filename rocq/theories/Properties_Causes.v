(** Property theorems about the number of interests a consumer sends (C127). *)
From Coq Require Import List NArith ZArith Bool Arith Lia.
From Coq.Strings Require Import Byte.
From Verif Require Import Base Mon MonFacts Iblt Tlv State NMap Codec Bloom SpecBloom Store Producer Partial Properties_Producer Full SpecFull Consumer SpecConsumer
  ConsumerFacts Properties_Consumer SpecFlood SpecCauses.
Import ListNotations.
Local Open Scope N_scope.

Lemma count_app {A} (f : A -> bool) a b : count f (a ++ b) = count f a + count f b.
Proof. unfold count. rewrite filter_app, app_length. lia. Qed.
Lemma asks_app a b : asks_sent (a ++ b) = asks_sent a + asks_sent b.
Proof. apply count_app. Qed.
(** a computation sends at most [b] interests more than it takes off the list of retries *)
Definition costs {A} (b : N) (m : CM A) : Prop := forall s, asks_sent (outs (m s)) + retries (st (m s)) <= retries s + b.
Lemma costs_bind {A B} a b (m : CM A) (f : A -> CM B) : costs a m -> (forall x, costs b (f x)) -> costs (a + b) (mbind m f).
Proof.
  intros Hm Hf s. specialize (Hm s). unfold mbind, outs, st in *. destruct (m s) as [[s1 o1] [x|e|u|]]; cbn [fst snd] in *; try lia.
  specialize (Hf x s1). unfold outs, st in Hf. destruct (f x s1) as [[s2 o2] r2]; cbn [fst snd] in *. rewrite asks_app. lia.
Qed.
Lemma costs_seq {A B} b (m : CM A) (f : A -> CM B) : costs 0 m -> (forall x, costs b (f x)) -> costs b (mbind m f).
Proof. intros H1 H2. apply (costs_bind 0 b); auto. Qed.
Lemma costs_weak {A} a b (m : CM A) : a <= b -> costs a m -> costs b m.
Proof. intros L H s. specialize (H s). lia. Qed.
Lemma costs_ret {A} b (x : A) : costs b (mret x).
Proof. intros s. unfold mret, outs, st. cbn. lia. Qed.
Lemma costs_get {B} b (f : cs -> CM B) : (forall s, costs b (f s)) -> costs b (mbind mget f).
Proof. intros H s. rewrite mbind_get. apply H. Qed.
Lemma costs_lift {A} b (r : outcome A) : costs b (mlift r).
Proof. intros s. unfold mlift, outs, st. cbn. lia. Qed.
Lemma costs_mod b f : (forall s, retries (f s) <= retries s + b) -> costs b (mmod f).
Proof. intros H s. unfold mmod, outs, st. cbn. specialize (H s). lia. Qed.
Lemma costs_emit b x : asks_sent x <= b -> costs b (memit x).
Proof. intros H s. unfold memit, outs, st. cbn [fst snd]. lia. Qed.
Lemma retries_start k n p s : retries (cstart k n (cstop p s)) = retries s.
Proof. destruct k, p; reflexivity. Qed.
Ltac plain := apply costs_mod; intros ?; unfold retries; cbn; lia.
Lemma costs_hello K : costs 1 (send_hello K).
Proof. apply costs_seq; [apply costs_mod; intros s; rewrite retries_start; lia|intros _]. apply costs_emit. cbv. discriminate. Qed.
Lemma costs_sync K : costs 1 (send_sync K).
Proof.
  apply costs_get. intros s. destruct (c_iblt s); [apply costs_lift|]. apply costs_seq; [apply costs_lift|intros x].
  apply costs_seq; [apply costs_mod; intros s1; rewrite retries_start; lia|intros _]. apply costs_emit. cbv. discriminate.
Qed.
Lemma costs_call K a : costs (if sends a then 1 else 0) (call K a).
Proof.
  destruct a as [p seq cb|p| | |]; cbn [call sends].
  - apply costs_seq; [|intros b; apply costs_emit; cbv; discriminate]. apply costs_get. intros s. destruct (nm_find _ _); [apply costs_ret|].
    apply costs_seq; [plain|intros _]. apply costs_seq; [apply costs_lift|intros b]. apply costs_seq; [plain|intros _].
    apply costs_seq; [|intros _; apply costs_ret]. destruct (_ && _); [apply costs_emit; cbv; discriminate|apply costs_ret].
  - apply costs_seq; [|intros b; apply costs_emit; cbv; discriminate]. apply costs_get. intros s. destruct (is_subscribed _ _); [|apply costs_ret].
    apply costs_seq; [plain|intros _]. apply costs_seq; [apply costs_lift|intros b]. apply costs_seq; [plain|intros _]. apply costs_ret.
  - apply costs_hello.
  - apply costs_sync.
  - apply costs_mod. intros s. unfold retries, cstop. cbn. destruct (c_sync s); cbn; destruct (c_hello s); cbn; lia.
Qed.
Lemma costs_calls K l : costs (count sends l) (calls K l).
Proof.
  induction l as [|a l IH]; cbn [calls]; [apply costs_ret|]. change (a :: l) with ([a] ++ l). rewrite count_app.
  apply costs_bind; [|intros _; exact IH]. pose proof (costs_call K a) as H. unfold count. cbn [filter]. destruct (sends a); exact H.
Qed.
Lemma costs_take_hello names : forall av, costs 0 (take_hello names av).
Proof.
  induction names as [|c names IH]; intros av; cbn [take_hello]; [apply costs_ret|].
  apply costs_seq; [apply costs_lift|intros x]. apply costs_seq; [apply costs_lift|intros v]. cbv zeta. apply costs_get. intros s.
  destruct (_ && _); [|apply IH]. apply costs_seq; [plain|intros _]. apply costs_seq; [apply IH|intros y; apply costs_ret].
Qed.
Lemma costs_take_sync names : costs 0 (take_sync names).
Proof.
  induction names as [|c names IH]; cbn [take_sync]; [apply costs_ret|].
  apply costs_seq; [apply costs_lift|intros x]. apply costs_seq; [apply costs_lift|intros v]. cbv zeta. apply costs_get. intros s.
  destruct (match nm_find _ _ with None => true | Some cur => cur <? v end); [|apply IH]. apply costs_seq; [plain|intros _]. apply costs_seq; [apply IH|intros y; apply costs_ret].
Qed.
Lemma costs_hello_data K buf sc1 sc2 : costs (count sends (sc1 ++ sc2)) (on_hello_data K buf sc1 sc2).
Proof.
  unfold on_hello_data. rewrite count_app. apply costs_seq; [plain|intros _]. apply costs_seq; [apply costs_lift|intros names].
  apply costs_seq; [apply costs_take_hello|intros x]. apply costs_seq; [apply costs_emit; cbv; discriminate|intros _].
  apply costs_bind; [apply costs_calls|intros _]. destruct (fst x); [apply costs_ret|].
  apply costs_seq; [apply costs_emit; cbv; discriminate|intros _]. apply costs_calls.
Qed.
Lemma costs_sync_data K buf sc : costs (count sends sc + 1) (on_csync_data K buf sc).
Proof.
  unfold on_csync_data. apply costs_seq; [plain|intros _]. apply costs_seq; [apply costs_lift|intros names].
  apply costs_seq; [apply costs_take_sync|intros l]. apply costs_bind; [|intros _; apply costs_sync]. destruct l; [apply costs_ret|].
  apply costs_seq; [apply costs_emit; cbv; discriminate|intros _]. apply costs_calls.
Qed.
Lemma length_minus {A} (l : list A) i x : nth_error l i = Some x -> S (length (firstn i l ++ skipn (S i) l)) = length l.
Proof.
  intros H. assert (i < length l)%nat by (apply nth_error_Some; congruence). rewrite app_length, firstn_length, skipn_length. lia.
Qed.
Lemma nack_tail K s : let x := (mlet s1 <- mget; if is_nack (c_type s1) then send_hello K else mret tt) s in
  asks_sent (outs x) + retries (st x) <= retries s + (if is_nack (c_type (st x)) then 1 else 0).
Proof.
  cbv zeta. rewrite mbind_get. destruct (is_nack (c_type s)) eqn:Nk.
  - pose proof (costs_hello K s) as H. unfold outs, st in *. destruct (send_hello K s) as [[s2 o2] r2] eqn:E2. cbn [fst snd] in *.
    assert (c_type s2 = c_type s) as ->.
    { unfold send_hello in E2. rewrite mbind_mod in E2. injection E2 as <- _ _. unfold cstart, cstop. destruct (c_hello s); reflexivity. }
    rewrite Nk. lia.
  - unfold mret, outs, st, asks_sent, count. cbn. lia.
Qed.
Lemma step_costs K e s : asks_sent (outs (c_step K e s)) + retries (st (c_step K e s)) <=
  retries s + (send_calls [e] + ended [e] + (match e with CeSegment _ d => if is_nack (c_type (st (c_step K e s))) then 1 else 0 | _ => 0 end)).
Proof.
  assert (forall b, costs b (c_step K e) -> b <= send_calls [e] + ended [e] -> asks_sent (outs (c_step K e s)) + retries (st (c_step K e s)) <=
    retries s + (send_calls [e] + ended [e] + match e with CeSegment _ d => if is_nack (c_type (st (c_step K e s))) then 1 else 0 | _ => 0 end)) as Go.
  { intros b H L. specialize (H s). lia. }
  destruct e as [a|i d|i buf sc1 sc2|i to|dt|i].
  - apply (Go (if sends a then 1 else 0)); [apply costs_call|]. unfold send_calls, count. cbn [flat_map calls_of app filter]. destruct (sends a); cbn; lia.
  - unfold send_calls, ended, count. cbn [flat_map calls_of app filter length N.of_nat]. rewrite !N.add_0_l. cbn [c_step]. rewrite mbind_get.
    destruct (cfetch i (c_live s)) as [[[|] n]|].
    + destruct (d_final d); unfold mmod, mret, outs, st, retries, asks_sent, count; cbn; lia.
    + destruct (d_final d); [rewrite mbind_mod|rewrite mbind_ret]; [|apply nack_tail].
      exact (nack_tail K (cset_type (d_type d) (cset_sname (name_prefix_back (d_name d) 2) s))).
    + unfold mret, outs, st, asks_sent, count. cbn. lia.
  - apply (Go (count sends (sc1 ++ sc2) + 1)).
    + cbn [c_step]. apply costs_get. intros s1. destruct (cfetch i (c_live s1)) as [[[|] n]|]; [..|apply costs_ret].
      * apply costs_seq; [plain|intros _]. eapply costs_weak; [|apply costs_hello_data]. lia.
      * apply costs_seq; [plain|intros _]. destruct (is_nack _); [plain|]. eapply costs_weak; [|apply costs_sync_data]. rewrite count_app. lia.
    + unfold send_calls, ended. cbn [flat_map calls_of]. rewrite app_nil_r. unfold count at 3. cbn. lia.
  - apply (Go 1); [|unfold send_calls, ended, count; cbn; lia]. cbn [c_step]. apply costs_get. intros s1.
    destruct (cfetch i (c_live s1)) as [[[|] n]|]; [..|apply costs_ret]; (apply costs_seq; [plain|intros _]).
    + apply costs_mod. intros s2. unfold retries. cbn. rewrite app_length. cbn. lia.
    + destruct to; [apply costs_sync|]. apply costs_mod. intros s2. unfold retries. cbn. rewrite app_length. cbn. lia.
  - apply (Go 0); [|lia]. plain.
  - unfold send_calls, ended, count. cbn [flat_map calls_of app filter length N.of_nat c_step]. rewrite mbind_get.
    destruct (nth_error (c_timers s) i) as [[dl k]|] eqn:En; [|unfold mret, outs, st, asks_sent, count; cbn; lia].
    destruct (dl <=? c_now s); [|unfold mret, outs, st, asks_sent, count; cbn; lia]. rewrite mbind_mod.
    set (s1 := cset_timers _ s). assert (retries s1 + 1 = retries s) as Er.
    { unfold retries, s1. cbn [c_timers cset_timers]. pose proof (length_minus _ _ _ En). lia. }
    destruct k; [pose proof (costs_hello K s1)|pose proof (costs_sync K s1)]; lia.
Qed.
Lemma send_calls_app a b : send_calls (a ++ b) = send_calls a + send_calls b.
Proof. unfold send_calls. rewrite flat_map_app. apply count_app. Qed.
Lemma run_costs K evs : forall s s' o, c_run K s evs = Some (s', o) ->
  asks_sent o + retries s' <= retries s + send_calls evs + ended evs + segments evs.
Proof.
  induction evs as [|e evs IH]; intros s s' o; unfold c_run; cbn [run].
  - intros [= -> <-]. unfold asks_sent, count. cbn. lia.
  - pose proof (step_costs K e s) as C.
    assert (send_calls (e :: evs) = send_calls [e] + send_calls evs) as S1 by apply (send_calls_app [e]).
    assert (ended (e :: evs) = ended [e] + ended evs) as S2 by apply (count_app _ [e]).
    assert (segments (e :: evs) = segments [e] + segments evs) as S3 by apply (count_app _ [e]).
    assert ((match e with CeSegment _ d => if is_nack (c_type (st (c_step K e s))) then 1 else 0 | _ => 0 end) <= segments [e]) as Sg.
    { destruct e; try lia. unfold segments, count. cbn. destruct (is_nack _); lia. }
    destruct (c_step K e s) as [[s1 o1] [x|x|x|]]; try discriminate; cbn [outs st fst snd] in *;
      (destruct (run _ s1 evs) as [[s2 o2]|] eqn:R; [|discriminate]); intros [= -> <-]; apply IH in R; rewrite asks_app; lia.
Qed.
(** ** Without Nacks *)
Definition same_type {A} (m : CM A) : Prop := forall s, c_type (st (m s)) = c_type s.
Lemma ty_bind {A B} (m : CM A) (f : A -> CM B) : same_type m -> (forall x, same_type (f x)) -> same_type (mbind m f).
Proof.
  intros Hm Hf s. specialize (Hm s). unfold mbind, st in *. destruct (m s) as [[s1 o1] [x|e|u|]]; cbn [fst] in *; auto.
  specialize (Hf x s1). unfold st in Hf. destruct (f x s1) as [[s2 o2] r2]. cbn [fst] in *. congruence.
Qed.
Lemma ty_get {B} (f : cs -> CM B) : (forall s, same_type (f s)) -> same_type (mbind mget f).
Proof. intros H s. rewrite mbind_get. apply H. Qed.
Lemma ty_ret {A} (x : A) : same_type (mret x). Proof. intros s. reflexivity. Qed.
Lemma ty_lift {A} (r : outcome A) : same_type (mlift r). Proof. intros s. reflexivity. Qed.
Lemma ty_emit x : same_type (memit x). Proof. intros s. reflexivity. Qed.
Lemma ty_mod f : (forall s, c_type (f s) = c_type s) -> same_type (mmod f). Proof. intros H s. apply H. Qed.
Lemma type_start k n p s : c_type (cstart k n (cstop p s)) = c_type s. Proof. destruct k, p; reflexivity. Qed.
Ltac ty := first [apply ty_ret|apply ty_lift|apply ty_emit|apply ty_mod; intros ?; (reflexivity || apply type_start)|apply ty_get; intros ?|apply ty_bind; [|intros ?]].
Lemma ty_hello K : same_type (send_hello K). Proof. unfold send_hello. repeat ty. Qed.
Lemma ty_sync K : same_type (send_sync K).
Proof. unfold send_sync. apply ty_get. intros s. destruct (c_iblt s); repeat ty. Qed.
Lemma ty_call K a : same_type (call K a).
Proof.
  destruct a as [p seq cb|p| | |]; cbn [call]; [| |apply ty_hello|apply ty_sync|].
  - apply ty_bind; [|intros; apply ty_emit]. apply ty_get. intros s. destruct (nm_find _ _); [apply ty_ret|]. repeat ty. destruct (_ && _); repeat ty.
  - apply ty_bind; [|intros; apply ty_emit]. apply ty_get. intros s. destruct (is_subscribed _ _); repeat ty.
  - apply ty_mod. intros s. unfold cstop. cbn. destruct (c_sync s); cbn; destruct (c_hello s); reflexivity.
Qed.
Lemma ty_calls K l : same_type (calls K l).
Proof. induction l; cbn [calls]; [apply ty_ret|]. apply ty_bind; [apply ty_call|intros _; exact IHl]. Qed.
Lemma ty_take_hello names : forall av, same_type (take_hello names av).
Proof. induction names as [|c names IH]; intros av; cbn [take_hello]; [ty|]. ty; [ty|]. ty; [ty|]. cbv zeta. ty. destruct (_ && _); [|apply IH]. ty; [ty|]. ty; [apply IH|ty]. Qed.
Lemma ty_take_sync names : same_type (take_sync names).
Proof.
  induction names as [|c names IH]; cbn [take_sync]; [ty|]. ty; [ty|]. ty; [ty|]. cbv zeta. ty.
  destruct (match nm_find _ _ with None => true | Some cur => cur <? _ end); [|apply IH]. ty; [ty|]. ty; [apply IH|ty].
Qed.
Lemma type_step K e s : is_nack (c_type s) = false -> (forall i d, e = CeSegment i d -> d_type d <> AppNack) ->
  is_nack (c_type (st (c_step K e s))) = false.
Proof.
  intros H Hn. destruct e as [a|i d|i buf sc1 sc2|i to|dt|i].
  - cbn [c_step]. rewrite ty_call. exact H.
  - specialize (Hn i d eq_refl). assert (is_nack (d_type d) = false) as Hd by (destruct (d_type d); [reflexivity|congruence]).
    cbn [c_step]. rewrite mbind_get. destruct (cfetch i (c_live s)) as [[[|] n]|]; [destruct (d_final d); exact H| |exact H].
    destruct (d_final d); [rewrite mbind_mod|rewrite mbind_ret]; rewrite mbind_get; cbn [c_type cset_type]; rewrite ?Hd, ?H; assumption.
  - cbn [c_step]. rewrite mbind_get. destruct (cfetch i (c_live s)) as [[[|] n]|]; [| |exact H].
    + assert (same_type (finish i ;; on_hello_data K buf sc1 sc2)) as T; [|rewrite T; exact H].
      unfold finish, on_hello_data. ty; [ty|]. ty; [ty|]. ty; [ty|]. ty; [apply ty_take_hello|]. ty; [ty|]. ty; [apply ty_calls|]. destruct (fst _); [ty|]. ty; [ty|apply ty_calls].
    + rewrite H. assert (same_type (finish i ;; on_csync_data K buf sc2)) as T; [|rewrite T; exact H].
      unfold finish, on_csync_data. ty; [ty|]. ty; [ty|]. ty; [ty|]. ty; [apply ty_take_sync|]. ty; [|apply ty_sync]. destruct x2 as [|u us]; [ty|]. ty; [ty|apply ty_calls].
  - cbn [c_step]. rewrite mbind_get. destruct (cfetch i (c_live s)) as [[[|] n]|]; [| |exact H].
    + exact H.
    + destruct to; [|exact H]. assert (same_type (finish i ;; send_sync K)) as T; [|rewrite T; exact H]. unfold finish. apply ty_bind; [ty|intros _; apply ty_sync].
  - exact H.
  - cbn [c_step]. rewrite mbind_get. destruct (nth_error _ _) as [[dl k]|]; [|exact H]. destruct (dl <=? _); [|exact H]. rewrite mbind_mod.
    destruct k; [rewrite ty_hello|rewrite ty_sync]; exact H.
Qed.
Lemma run_costs_plain K evs : forall s s' o, is_nack (c_type s) = false -> no_nack evs -> c_run K s evs = Some (s', o) ->
  asks_sent o + retries s' <= retries s + send_calls evs + ended evs.
Proof.
  induction evs as [|e evs IH]; intros s s' o Hs Hn; unfold c_run; cbn [run].
  - intros [= -> <-]. unfold asks_sent, count. cbn. lia.
  - pose proof (step_costs K e s) as C. pose proof (type_step K e s Hs (fun i d E => Hn i d (or_introl E))) as T.
    assert (send_calls (e :: evs) = send_calls [e] + send_calls evs) as S1 by apply (send_calls_app [e]).
    assert (ended (e :: evs) = ended [e] + ended evs) as S2 by apply (count_app _ [e]).
    rewrite T in C. assert ((match e with CeSegment _ _ => 0 | _ => 0 end) = 0) as Z by (destruct e; reflexivity). rewrite Z in C.
    assert (no_nack evs) as Hn' by (intros i d H; apply (Hn i d); right; exact H).
    destruct (c_step K e s) as [[s1 o1] [x|x|x|]]; try discriminate; cbn [outs st fst snd] in *;
      (destruct (run _ s1 evs) as [[s2 o2]|] eqn:R; [|discriminate]); intros [= -> <-]; apply (IH _ _ _ T Hn') in R; rewrite asks_app; lia.
Qed.
Lemma creaches_start K evs s o : creaches K evs s o -> exists s0, retries s0 = 0 /\ c_type s0 = Blob /\ c_run K s0 evs = Some (s, o).
Proof.
  unfold creaches, c_start, c_new. destruct (bloom_new _ _ _) as [b|x|x|]; try discriminate. cbn [obind]. intros R.
  eexists. split; [|split; [|exact R]]; reflexivity.
Qed.

(** * C127 *)
(** each interest, and each retry that is still to come, has a cause of its own: a call of the
    application, a fetch that ended, or a segment that came in *)
Theorem C127_interests_have_causes : forall K evs s o, creaches K evs s o ->
  asks_sent o + retries s <= send_calls evs + ended evs + segments evs.
Proof. intros K evs s o R. apply creaches_start in R as (s0 & E & _ & R). apply run_costs in R. lia. Qed.
Print Assumptions C127_interests_have_causes.
(** segments count only when Nacks come in *)
Theorem C127_without_nacks : forall K evs s o, creaches K evs s o -> no_nack evs ->
  asks_sent o + retries s <= send_calls evs + ended evs.
Proof. intros K evs s o R Hn. apply creaches_start in R as (s0 & E & T & R). apply run_costs_plain in R; [lia|rewrite T; reflexivity|exact Hn]. Qed.
Print Assumptions C127_without_nacks.
(** over a part of a run: the retries scheduled at its beginning count as well *)
Theorem C127_interests_of_a_stretch : forall K evs s o evs' s' o', creaches K evs s o -> c_run K s evs' = Some (s', o') ->
  asks_sent o' + retries s' <= retries s + send_calls evs' + ended evs' + segments evs'.
Proof. intros K evs s o evs' s' o' _ R. apply run_costs in R. lia. Qed.
Print Assumptions C127_interests_of_a_stretch.
(** the bound is met, and Nacks do count: each of two Nack segments makes the consumer send a hello interest *)
Definition evs_127 : list cev := [CeCall CSendHello; CeError 0 false].
Definition evs_127n : list cev := [CeSegment 1 (seg sync_name AppNack); CeSegment 1 (seg sync_name AppNack)].
Theorem C127_bound_is_met : exists K evs s o evs' s' o', filter_ok K /\ rate_ok K /\ creaches K evs s o /\ no_nack evs /\
  asks_sent o + retries s = send_calls evs + ended evs /\ 0 < retries s /\
  creaches K evs' s' o' /\ exists evs2 s2 o2, c_run K s' evs2 = Some (s2, o2) /\ asks_sent o2 = 2 /\ send_calls evs2 = 0 /\ ended evs2 = 0.
Proof.
  exists Kc, evs_127, (fst (after evs_127)), (snd (after evs_127)), evs_c1, s_c1, o_c1. split; [exact filter_c|]. split; [exact rate_c|].
  split; [apply reach_c; vm_compute; reflexivity|]. split; [intros i d [H|[H|[]]]; discriminate|].
  split; [vm_compute; reflexivity|]. split; [vm_compute; reflexivity|]. split; [apply reach_c; vm_compute; reflexivity|].
  exists evs_127n, (fst (after (evs_c1 ++ evs_127n))). eexists. split; [vm_compute; reflexivity|]. split; [vm_compute; reflexivity|]. split; reflexivity.
Qed.
Print Assumptions C127_bound_is_met.
Example C127_example : creaches Kc evs_c2 s_c2 o_c2 /\ no_nack evs_c2 /\ asks_sent o_c2 = 2 /\ send_calls evs_c2 = 2 /\ ended evs_c2 = 1 /\ segments evs_c2 = 2.
Proof.
  split; [exact reach_c2|]. split; [intros i d H; vm_compute in H; repeat (destruct H as [H|H]; [try discriminate; injection H as _ <-; discriminate|]); destruct H|].
  repeat split.
Qed.
