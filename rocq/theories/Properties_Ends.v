(** Which interests a partial-sync producer or a full-sync node does not finish handling (C68, C113). *)
From Coq Require Import List NArith ZArith Bool Lia Arith.
From Verif Require Import Base BaseFacts Mon MonFacts Iblt Tlv TlvFacts NMap State Store StoreFacts Codec CodecFacts Producer SpecProducer ProducerFacts
  Bloom SpecBloom BloomFacts Properties_Bloom Partial SpecPartial PartialFacts PartialSteps Properties_Producer Properties_Partial
  Iblt SpecIblt Properties_Iblt Full FullTrace SpecFull FullFacts FullSafe FullRuns Properties_Full.
Import ListNotations.
Local Open Scope N_scope.

(** [r] is how [m] ended: with undefined behaviour or not at all *)
Definition fails_as {A} (m : outcome A) (r : outcome unit) : Prop :=
  (exists u, m = UB u /\ r = UB u) \/ m = Hang /\ r = Hang.

Lemma hello_name_ok n base : n = base ++ [HELLO] \/ (exists x r, n = base ++ HELLO :: x :: r) -> exists b, is_hello_name n = Ok b.
Proof.
  intros H. unfold is_hello_name.
  assert (forall k, (1 <= k <= length n)%nat -> exists c, name_get_minus n k = Ok c) as G.
  { intros k Hk. unfold name_get_minus. destruct (Nat.leb_spec k (length n)); [|lia]. unfold name_get.
    destruct (nth_error n (length n - k)) as [c|] eqn:E; [eauto|]. apply nth_error_None in E. lia. }
  destruct H as [->|(x & r & E)].
  - rewrite name_get_minus_last. cbn [obind]. change (comp_eqb HELLO HELLO) with true. eauto.
  - assert (2 <= length n)%nat as L by (rewrite E, app_length; cbn; lia).
    destruct (G 1%nat) as [c ->]; [lia|]. cbn [obind]. destruct (comp_eqb c HELLO); eauto.
    assert (exists c', name_get_minus n 4 = Ok c') as [c' ->]; [|cbn; eauto].
    destruct (Nat.leb_spec 4 (length n)); [apply G; lia|].
    unfold name_get_minus. destruct (Nat.leb_spec 4 (length n)); [lia|]. destruct (Nat.leb_spec 4 (2 * length n)); [|lia].
    unfold name_get. destruct (nth_error n (2 * length n - 4)) as [c'|] eqn:X; [eauto|]. apply nth_error_None in X. lia.
Qed.
Lemma matching_unsafe b bf hs : (forall n, bloom_contains bf n = UB UbOutOfBounds) ->
  matching b bf hs = Ok [] /\ (forall h, In h hs -> bm_left h b = None) \/
  matching b bf hs = UB UbOutOfBounds /\ exists h, In h hs /\ bm_left h b <> None.
Proof.
  intros H. induction hs as [|h hs IH]; cbn [matching]; [left; split; [reflexivity|intros h []]|].
  destruct (bm_left h b) as [nm|] eqn:E.
  - right. rewrite H. split; [reflexivity|]. exists h. split; [left; auto|congruence].
  - destruct IH as [[A B]|[A (h' & B & C)]]; [left|right]; (split; [exact A|]).
    + intros h' [<-|Hh]; auto.
    + exists h'. split; [right; auto|auto].
Qed.
Lemma filter_of_request L c1 c2 c3 bf : bloom_of_comps L c1 c2 c3 = Ok bf ->
  bloom_sound bf \/ b_size bf = 1 /\ forall n, bloom_contains bf n = UB UbOutOfBounds.
Proof.
  unfold bloom_of_comps. destruct (to_number c1) as [k| | |]; try discriminate. cbn [obind].
  destruct (to_number c2) as [r| | |]; try discriminate. cbn [obind]. intros H.
  destruct (C20_memory_safety_partial _ _ _ _ _ H) as (A & B & C).
  destruct (proj2 (proj2 (bloom_of_comp_cases _ _ _ _ _ H))) as [[E _]|E]; [right|left; exact E].
  split; auto. intros n. apply (proj2 (C E) n).
Qed.

Lemma extract_eq K c1 c2 c3 c4 : extract K (pc_sync K ++ [SYNC; c1; c2; c3; c4]) =
  match bloom_of_comps (pc_libm K) c1 c2 c3 with
  | Throw _ => Ok None
  | UB u => UB u
  | Hang => Hang
  | Ok bf =>
    match initialize (pc_codec K) (pc_scheme K) (iblt_new (pc_n K)) c4 with
    | (t, Ok _) => Ok (Some (bf, t))
    | (_, Throw _) => Ok None
    | (_, UB u) => UB u
    | (_, Hang) => Hang
    end
  end.
Proof.
  unfold extract. change ([SYNC; c1; c2; c3; c4]) with ([SYNC] ++ [c1; c2; c3; c4]). rewrite app_assoc.
  rewrite !name_get_back_app by (simpl; lia). reflexivity.
Qed.

(** * C68 *)
(** a partial-sync producer finishes handling every interest, except those not answered from the store
    that are sync requests and (1) whose filter parameters are ones for which the size of the table is
    undefined, (2) whose IBF makes the comparison overflow or never end, (3) whose filter has no table
    (rate 1.000), when the producer has a name to look up in it; and on these it fails *)
Theorem C68_fails_exactly_when : forall K s n l,
  scheme_ok (pc_codec K) (pc_scheme K) ->
  let r := res (pp_step K (PInterest n l) s) in
  r = Ok tt \/
  reply_from_store n (pp_pub s) = None /\
  exists c1 c2 c3 c4 tail, n = pc_sync K ++ [SYNC; c1; c2; c3; c4] ++ tail /\ (length tail = 0%nat \/ length tail = 2%nat) /\
    (fails_as (bloom_of_comps (pc_libm K) c1 c2 c3) r \/
     exists bf t, bloom_of_comps (pc_libm K) c1 c2 c3 = Ok bf /\ initialize (pc_codec K) (pc_scheme K) (iblt_new (pc_n K)) c4 = (t, Ok tt) /\
       (fails_as (iblt_sub (pc_fuel K) (k_iblt (pp_core s)) t) r \/
        exists d h, iblt_sub (pc_fuel K) (k_iblt (pp_core s)) t = Ok d /\ can_decode d = true /\ b_size bf = 1 /\
          In h (positive d) /\ bm_left h (k_bimap (pp_core s)) <> None /\ r = UB UbOutOfBounds)).
Proof.
  intros K s n l Sk r. unfold r. clear r. cbn [pp_step]. unfold dispatch.
  destruct (is_prefix (pc_sync K ++ [HELLO]) n) eqn:Ph.
  { left. unfold on_hello_interest. rewrite mbind_get. destruct (reply_from_store n (pp_pub s)); [reflexivity|].
    apply is_prefix_iff in Ph as [rest ->].
    destruct (hello_name_ok ((pc_sync K ++ [HELLO]) ++ rest) (pc_sync K)) as [b Hb].
    { rewrite <- app_assoc. destruct rest as [|x rest]; [left; reflexivity|right; exists x, rest; reflexivity]. }
    rewrite mbind_lift, Hb. destruct b; [|reflexivity].
    destruct (append_cases K (pc_sync K ++ [HELLO]) (k_iblt (pp_core s)) Sk) as (c & Hc & _). rewrite mbind_lift, Hc.
    destruct (pp_publish_total K ((pc_sync K ++ [HELLO]) ++ rest) ((pc_sync K ++ [HELLO]) ++ [c]) (encode_names (hello_content (pp_core s)))
      (pc_hello_fresh K) s) as (p & o & _ & ->); [destruct (pc_sync K); discriminate|reflexivity]. }
  destruct (is_prefix (pc_sync K ++ [SYNC]) n) eqn:Ps; [|left; reflexivity].
  unfold on_sync_interest. rewrite mbind_get. destruct (reply_from_store n (pp_pub s)) as [x|] eqn:Hr; [left; reflexivity|].
  destruct (sync_request _ n) as [rn|] eqn:Eq; [|left; reflexivity].
  apply (sync_request_iff K n rn Ps) in Eq as (c1 & c2 & c3 & c4 & tl & -> & -> & Ht).
  assert (((pc_sync K ++ [SYNC; c1; c2; c3; c4]) ++ tl) = pc_sync K ++ [SYNC; c1; c2; c3; c4] ++ tl) as En by (rewrite <- app_assoc; reflexivity).
  rewrite mbind_lift, extract_eq. rewrite En in Hr |- *.
  destruct (bloom_of_comps (pc_libm K) c1 c2 c3) as [bf|e|u|] eqn:Eb.
  2:{ left. reflexivity. }
  2:{ right. split; auto. exists c1, c2, c3, c4, tl. split; [auto|]. split; [auto|]. left. left. exists u. auto. }
  2:{ right. split; auto. exists c1, c2, c3, c4, tl. split; [auto|]. split; [auto|]. left. right. auto. }
  destruct (initialize (pc_codec K) (pc_scheme K) (iblt_new (pc_n K)) c4) as [t ri] eqn:Ei.
  destruct ri as [[]|e|u|].
  2:{ left. reflexivity. }
  2:{ exfalso. apply initialize_no_UB in Ei as [X|[e X]]; discriminate X. }
  2:{ exfalso. apply initialize_no_UB in Ei as [X|[e X]]; discriminate X. }
  assert (sync_request_for K (pc_sync K ++ [SYNC; c1; c2; c3; c4] ++ tl) (pc_sync K ++ [SYNC; c1; c2; c3; c4]) bf t) as Hq.
  { exists c1, c2, c3, c4, tl. rewrite <- En. auto. }
  rewrite mbind_lift.
  destruct (iblt_sub (pc_fuel K) (k_iblt (pp_core s)) t) as [d|e|u|] eqn:D.
  2:{ exfalso. pose proof (iblt_sub_no_throw (pc_fuel K) (k_iblt (pp_core s)) t) as X. rewrite D in X. apply (X e eq_refl). }
  2:{ right. split; auto. exists c1, c2, c3, c4, tl. split; [auto|]. split; [auto|]. right. exists bf, t. split; auto. split; auto. left. left. exists u. auto. }
  2:{ right. split; auto. exists c1, c2, c3, c4, tl. split; [auto|]. split; [auto|]. right. exists bf, t. split; auto. split; auto. left. right. auto. }
  destruct (append_cases K (pc_sync K ++ [SYNC; c1; c2; c3; c4]) (k_iblt (pp_core s)) Sk) as (c & Ha & Hc).
  destruct (can_decode d) eqn:Cd; cbn [negb].
  2:{ left. unfold pp_send_nack. rewrite mbind_get, mbind_lift, Ha. reflexivity. }
  rewrite mbind_lift. destruct (matching (k_bimap (pp_core s)) bf (positive d)) as [names|e|u|] eqn:M.
  - left. destruct (_ || _); [|reflexivity]. rewrite mbind_lift, Ha.
    destruct (request_nonempty _ _ _ _ _ Hq) as [Hne _].
    destruct (pp_publish_total K _ ((pc_sync K ++ [SYNC; c1; c2; c3; c4]) ++ [c]) (encode_names names) (pc_sync_fresh K) s Hne)
        as (p & o' & P & ->). reflexivity.
  - exfalso. apply (matching_no_throw (k_bimap (pp_core s)) bf (positive d) e M).
  - right. split; auto. exists c1, c2, c3, c4, tl. split; [auto|]. split; [auto|]. right. exists bf, t. split; auto. split; auto. right.
    destruct (filter_of_request _ _ _ _ _ Eb) as [X|[X Y]].
    { destruct (matching_total (k_bimap (pp_core s)) bf (positive d) X) as [z Z]. congruence. }
    destruct (matching_unsafe (k_bimap (pp_core s)) bf (positive d) Y) as [[Z _]|[Z (h & Hh & Hb)]]; [congruence|].
    exists d, h. rewrite M in Z. injection Z as ->. auto 10.
  - exfalso. destruct (filter_of_request _ _ _ _ _ Eb) as [X|[X Y]].
    { destruct (matching_total (k_bimap (pp_core s)) bf (positive d) X) as [z Z]. congruence. }
    destruct (matching_unsafe (k_bimap (pp_core s)) bf (positive d) Y) as [[Z _]|[Z _]]; congruence.
Qed.
Print Assumptions C68_fails_exactly_when.

(** * C113 *)
Section Ends.
Variable K : fcfg.
Hypothesis Sk : schemes_ok K.
Hypothesis Uk : uri_ok K.
Definition ends {A} (s : fp) (m : FM A) : Prop := exists a, res (m s) = Ok a.
Lemma en_ret {A} s (a : A) : ends s (mret a). Proof. eexists. reflexivity. Qed.
Lemma en_emit s o : ends s (memit o). Proof. eexists. reflexivity. Qed.
Lemma en_mod1 s f : ends s (mmod f). Proof. eexists. reflexivity. Qed.
Lemma en_bind {A B} s (m : FM A) (f : A -> FM B) : ends s m -> (forall s1 a, ends s1 (f a)) -> ends s (mbind m f).
Proof.
  unfold ends, mbind, res. intros [a Hm] Hf. destruct (m s) as [[s1 o1] r]. cbn [snd] in Hm. subst r.
  destruct (Hf s1 a) as [b Hb]. destruct (f a s1) as [[s2 o2] r2]. cbn [snd] in *. eauto.
Qed.
Lemma en_get {B} s (f : fp -> FM B) : ends s (f s) -> ends s (mbind mget f).
Proof. unfold ends. rewrite mbind_get. auto. Qed.
Lemma en_mod {B} s g (f : unit -> FM B) : ends (g s) (f tt) -> ends s (mbind (mmod g) f).
Proof. unfold ends. rewrite mbind_mod. auto. Qed.
Lemma en_lift {A B} s (a : A) (f : A -> FM B) : ends s (f a) -> ends s (mbind (mlift (Ok a)) f).
Proof. unfold ends. rewrite mbind_lift. auto. Qed.
Lemma en_add s p : ends s (fp_op (CAdd p)).
Proof. unfold fp_op. apply en_get. cbn [cstep]. apply en_lift, en_mod, en_emit. Qed.
Lemma en_prefix s p : ends s (prefix_seq p).
Proof. unfold prefix_seq. apply en_get. destruct (get_seq p (f_core s)); [apply en_ret|]. apply en_bind; [apply en_add|intros; apply en_ret]. Qed.
Lemma en_send s : ends s (send_sync_interest K).
Proof.
  unfold ends. rewrite send_eq. destruct (f_wait s); [eexists; reflexivity|].
  destruct (sync_name_total K (f_core s) Sk) as (n & -> & _). destruct (_ && _); eexists; reflexivity.
Qed.
Lemma en_publish s n b f : n <> [] -> ends s (fp_publish K n n b f).
Proof.
  intros H. unfold ends. rewrite fp_publish_eq. unfold res. cbn [snd]. unfold publish. cbn [snd].
  destruct (put_segment_total n (segment (fc_env K) (pb_signed (f_pub s)) (append_version n (en_version (fc_env K) (pb_published (f_pub s)))) b f) H)
    as [x ->]. eexists. reflexivity.
Qed.
Lemma en_data s n l f : n <> [] -> ends s (send_sync_data K n l f).
Proof.
  intros H. unfold send_sync_data. apply en_get. cbv zeta.
  apply en_bind; [destruct (_ && _); [unfold stop_fetcher; apply en_mod; apply en_mod1|apply en_ret]|]. intros s1 _.
  destruct (scheme_ok_compress (fc_codec K) (fc_cscheme K) (encode_names l) (proj2 Sk)) as [b ->].
  apply en_lift. apply en_bind; [apply en_publish; auto|]. intros s2 _.
  destruct (name_eqb _ _); [apply en_send|apply en_ret].
Qed.
Lemma en_schedule s : ends s (schedule_waiting K).
Proof. unfold ends. rewrite schedule_eq. eexists. reflexivity. Qed.
Lemma en_future s p neg : ends s (is_future K p neg).
Proof. unfold is_future. rewrite Uk. apply en_lift. apply en_bind; [apply en_prefix|intros; apply en_ret]. Qed.
Lemma en_offered neg hs : forall s, ends s (offered K neg hs).
Proof.
  induction hs as [|h hs IH]; intros s; simpl; [apply en_ret|]. apply en_get.
  destruct (bm_left h _); auto. apply en_bind; [apply en_prefix|]. intros s1 v.
  apply en_bind; [destruct (v =? 0); [apply en_ret|apply en_future]|]. intros s2 b.
  apply en_bind; auto. intros. apply en_ret.
Qed.
Lemma en_start s n : ends s (start_waiting K n).
Proof. apply en_mod. apply en_schedule. Qed.
Lemma en_undecodable s n timed rcvd d : n <> [] -> ends s (on_undecodable K n timed rcvd d).
Proof.
  intros Hn. unfold on_undecodable. apply en_get. destruct (_ <? rcvd).
  - destruct timed, (nm_find n (f_waiting s)) as [tries|]; try apply en_ret; [|apply en_start].
    destruct (1 <? tries); [|apply en_ret]. apply en_mod. apply en_send.
  - destruct (_ && _); [apply en_ret|]. apply en_bind; [|intros; apply en_mod1].
    destruct (entire_state (f_core s)); [apply en_ret|].
    apply en_bind; [apply en_data; auto|intros; apply en_mod1].
Qed.
Lemma en_decoded s n l timed t d : n <> [] -> ends s (on_decoded K n l timed t d).
Proof.
  intros Hn. unfold on_decoded. apply en_get.
  assert (forall x, ends x (mlet l0 <- offered K (negative d) (positive d);
    match l0 with [] => mret tt | _ :: _ => send_sync_data K n l0 (fc_fresh K) ;; mark_waiting n end)) as H.
  { intros x. apply en_bind; [apply en_offered|]. intros s1 [|a l0]; [apply en_ret|].
    apply en_bind; [apply en_data; auto|intros; apply en_mod1]. }
  destruct (positive d) as [|h hs]; [|destruct (negative d); apply H].
  destruct (negative d) as [|g gs].
  - apply en_mod. destruct timed; [apply en_mod1|apply en_ret].
  - destruct timed, (nm_find n (f_waiting s)) as [tries|]; try apply en_ret; [|apply en_start].
    destruct (1 <? tries); [apply en_mod1|apply en_ret].
Qed.
End Ends.
(** a full-sync node finishes handling every interest, except those not answered from the store that
    have two components after the sync prefix, of which (1) the second is no number: it throws, or (2)
    the first is an IBF that makes the comparison overflow or never end *)
Theorem C113_fails_exactly_when : forall K s n l,
  schemes_ok K -> uri_ok K ->
  let r := res (fp_step K (FeInterest n l) s) in
  r = Ok tt \/
  reply_from_store n (f_pub s) = None /\
  ((exists c c1 x, n = fc_sync K ++ [c; c1] /\ to_number c1 = Throw x /\ r = Throw x) \/
   exists t rcvd, full_request K n t rcvd /\ fails_as (iblt_sub (fc_fuel K) (k_iblt (f_core s)) t) r).
Proof.
  intros K s n l Sk Uk r. unfold r. clear r. cbn [fp_step]. destruct (is_prefix (fc_sync K) n) eqn:Ps; [|left; reflexivity].
  apply is_prefix_iff in Ps as [rest ->]. unfold on_finterest. rewrite mbind_get.
  destruct (reply_from_store (fc_sync K ++ rest) (f_pub s)) as [d|] eqn:Hr; [left; reflexivity|].
  cbv zeta. rewrite skipn_app_len. destruct (Nat.eqb_spec (length rest) 4).
  { left. unfold fp_send_nack. rewrite mbind_get.
    destruct (scheme_ok_append (fc_codec K) (fc_scheme K) (fc_sync K) (k_iblt (f_core s)) (proj1 Sk)) as (c & _ & ->). reflexivity. }
  destruct (Nat.eqb_spec (length rest) 2) as [E|E]; cbn [negb]; [|left; reflexivity].
  destruct rest as [|c [|c1 [|? ?]]]; try discriminate E.
  rewrite !name_get_back_app by (simpl; lia). cbn [name_get_back length Nat.leb Nat.sub name_get nth_error].
  rewrite !mbind_lift. destruct (to_number c1) as [rcvd|x|u|] eqn:En.
  2:{ right. split; auto. left. exists c, c1, x. auto. }
  2:{ exfalso. unfold to_number in En. destruct (is_number c1); discriminate En. }
  2:{ exfalso. unfold to_number in En. destruct (is_number c1); discriminate En. }
  destruct (initialize _ _ _ _) as [t ri] eqn:Ei.
  destruct (initialize_no_UB _ _ _ _ _ _ Ei) as [-> |[e ->]]; [|left; reflexivity].
  assert (full_request K (fc_sync K ++ [c; c1]) t rcvd) as Hq by (exists c, c1; auto).
  assert (fc_sync K ++ [c; c1] <> []) as N0 by (destruct (fc_sync K); discriminate).
  rewrite mbind_lift. destruct (iblt_sub (fc_fuel K) (k_iblt (f_core s)) t) as [d|e|u|] eqn:D.
  - left. assert (forall m : FM unit, ends s m -> res (m s) = Ok tt) as H by (intros m [[] X]; exact X).
    destruct (can_decode d); apply H; [apply en_decoded; auto|apply en_undecodable; auto].
  - exfalso. apply (iblt_sub_no_throw _ _ _ _ D).
  - right. split; auto. right. exists t, rcvd. split; auto. left. exists u. rewrite D. auto.
  - right. split; auto. right. exists t, rcvd. split; auto. right. rewrite D. auto.
Qed.
Print Assumptions C113_fails_exactly_when.

(** for every state of the node there is an interest on which it loops for ever, whatever time it is
    given, and one on which it overflows a signed integer *)
Theorem C113_interest_hangs_refuted : forall K sys evs s o count,
  fc_n K <> 0%nat -> fc_scheme K = SNone -> count < two64 -> reaches K sys evs s o -> no_collision K o -> pb_store (f_pub s) = [] ->
  exists hang crash,
    (forall l, res (fp_step K (FeInterest (fc_sync K ++ [hang; number_comp TYPE_GENERIC count]) l) s) = Hang) /\
    (forall l, res (fp_step K (FeInterest (fc_sync K ++ [crash; number_comp TYPE_GENERIC count]) l) s) = UB UbIntOverflow).
Proof.
  intros K sys evs s o count Hn Hs Hk R Hc He. destruct (reaches_core _ _ _ _ _ R) as [W C].
  pose proof (C30_ibf_is_current_names _ _ _ W C Hc) as [Hi _].
  assert (keys32 (map name_hash (live (f_core s)))) as K32.
  { apply Forall_forall. intros h Hh. apply in_map_iff in Hh as (nm & <- & _). apply name_hash_lt. }
  destruct (C13_termination_refuted _ _ _ Hn K32 Hi) as (c & t & I1 & Ht).
  destruct (C14_overflow_refuted _ _ _ Hn K32 Hi) as (c' & t' & I2 & Ht').
  assert (forall c t r l, initialize codec_none SNone (iblt_new (fc_n K)) c = (t, Ok tt) ->
    iblt_sub (fc_fuel K) (k_iblt (f_core s)) t = r -> (forall d, r <> Ok d) ->
    fails_as r (res (fp_step K (FeInterest (fc_sync K ++ [c; number_comp TYPE_GENERIC count]) l) s))) as H.
  { clear - He Hs Hk. intros c t r l Ei <- Hr. cbn [fp_step].
    assert (is_prefix (fc_sync K) (fc_sync K ++ [c; number_comp TYPE_GENERIC count]) = true) as ->
      by (apply is_prefix_iff; eexists; reflexivity).
    unfold on_finterest. rewrite mbind_get.
    assert (forall m, reply_from_store m (f_pub s) = None) as -> by (intros m; unfold reply_from_store; rewrite He; reflexivity).
    rewrite skipn_app_len. cbn [length Nat.eqb negb].
    rewrite !name_get_back_app by (simpl; lia). cbn [name_get_back length Nat.leb Nat.sub name_get nth_error].
    rewrite !mbind_lift. rewrite to_number_number by exact Hk.
    assert (initialize (fc_codec K) (fc_scheme K) (iblt_new (fc_n K)) c = (t, Ok tt)) as -> by (rewrite Hs; exact Ei).
    rewrite mbind_lift. destruct (iblt_sub (fc_fuel K) (k_iblt (f_core s)) t) as [d|e|u|] eqn:D.
    - destruct (Hr d eq_refl).
    - destruct (iblt_sub_no_throw _ _ _ _ D).
    - left. exists u. auto.
    - right. auto. }
  exists c, c'. split; intros l.
  - destruct (H c t Hang l I1 (Ht _)) as [(u & X & _)|[_ X]]; [discriminate|discriminate X|exact X].
  - destruct (H c' t' (UB UbIntOverflow) l I2 (Ht' _)) as [(u & [= <-] & X)|[X _]]; [discriminate|exact X|discriminate X].
Qed.
Print Assumptions C113_interest_hangs_refuted.

(** interests that carry the IBF of a set of names are handled *)
Theorem C113_honest_interest_handled_partial : forall K sys evs s o n t rcvd l ks,
  schemes_ok K -> uri_ok K -> reaches K sys evs s o -> no_collision K o ->
  full_request K n t rcvd -> NoDup ks -> IbfOf (fc_n K) ks t -> exact_diff K (f_core s) ks ->
  res (fp_step K (FeInterest n l) s) = Ok tt.
Proof.
  intros K sys evs s o n t rcvd l ks Sk Uk R Hc Hq Nk Ht X.
  destruct (full_exact _ _ _ _ _ _ _ R Hc Nk Ht X) as (d & Hd & _).
  destruct (C113_fails_exactly_when K s n l Sk Uk) as [H|(Hr & [(c & c1 & x & E & Hx & _)|(t' & rcvd' & Hq' & F)])]; [exact H| |].
  - destruct Hq as (a & a1 & E' & Hn & _). rewrite E in E'. apply app_inv_head in E'. injection E' as <- <-. congruence.
  - destruct Hq as (a & a1 & E & _ & Hi), Hq' as (b & b1 & E' & _ & Hi'). rewrite E in E'. apply app_inv_head in E'. injection E' as <- <-.
    rewrite Hi in Hi'. injection Hi' as <-. rewrite Hd in F. destruct F as [(u & [=] & _)|[[=] _]].
Qed.
Print Assumptions C113_honest_interest_handled_partial.

(** the cases occur *)
Example C113_example : fc_n Kf <> 0%nat /\ fc_scheme Kf = SNone /\ reaches Kf 0 evs_52 s_52 o_52 /\ no_collision Kf o_52 /\
  pb_store (f_pub s_52) = [].
Proof.
  split; [discriminate|]. split; [reflexivity|]. split; [apply reach_52|]. split; [apply free_52|reflexivity].
Qed.
Example C68_fails_example : exists n, res (pp_step Kx (PInterest n 1000) s_ex) = Hang.
Proof.
  destruct reach_ex as [o R].
  destruct (C68_interest_hangs_refuted Kx evs_ex s_ex o c_one c_one all_ones bf_all) as (h & c & H & _);
    [apply C68_example|apply C68_example|apply wf_ex|apply free_ex|exact R|apply C68_example|apply C68_example|].
  exists h. apply H.
Qed.
