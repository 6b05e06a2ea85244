(** Property theorems about filter parameters nothing can be computed for (C87). *)
From Coq Require Import List NArith ZArith Bool Lia Arith Floats.SpecFloat.
From Coq.Strings Require Import Byte.
From Verif Require Import Base BaseFacts Mon MonFacts Murmur Iblt Tlv TlvFacts NMap State Store StoreFacts Codec CodecFacts Producer Bloom SpecBloom BloomFacts
  Properties_Bloom Partial SpecPartial PartialFacts Consumer SpecConsumer Properties_Partial.
Import ListNotations.
Local Open Scope N_scope.

Lemma optimal_throws L count p e : optimal_params L count p = Throw e <->
  e = ExBloom /\ (count = 0 \/ SFltb p (S754_zero false) = true \/ exists s, p = S754_infinity s).
Proof.
  unfold optimal_params. destruct (params_bad count p) eqn:B.
  - unfold params_bad in B. split; [intros [= <-]; split; [reflexivity|]|intros [-> _]; reflexivity].
    apply orb_true_iff in B as [B|B]; [apply orb_true_iff in B as [B|B]|].
    + left. apply N.eqb_eq. exact B.
    + right. left. exact B.
    + right. right. destruct p as [|s| |]; try discriminate. exists s. reflexivity.
  - unfold params_bad in B. apply orb_false_iff in B as [B B3]. apply orb_false_iff in B as [B1 B2]. apply N.eqb_neq in B1. split.
    + intros H. exfalso. destruct (min_m_k L count p) as [m k]. unfold d_cast in H. destruct (d_trunc k) as [z|]; [|discriminate].
      destruct (_ && _); [|discriminate]. cbn [obind] in H. destruct (d_trunc m) as [y|]; [|discriminate]. destruct (_ && _); discriminate.
    + intros (_ & [H|[H|(s & ->)]]); [contradiction|congruence|discriminate].
Qed.
Lemma generate_salts_no_throw L c e : generate_salts L c <> Throw e.
Proof.
  unfold generate_salts. destruct (c <=? 128); [discriminate|]. generalize (N.to_nat c), predef_salt, 0%nat. clear c.
  induction (l_rand_fuel L) as [|f IH]; intros c l i; cbn [rand_salts]; destruct (Nat.leb c (length l)); try discriminate.
  destruct (_ || _); apply IH.
Qed.
Lemma bloom_new_throws L count p e : bloom_new L count p = Throw e <->
  e = ExBloom /\ (count = 0 \/ SFltb p (S754_zero false) = true \/ exists s, p = S754_infinity s).
Proof.
  rewrite <- (optimal_throws L). unfold bloom_new. destruct (optimal_params L count p) as [[nh ts]|x|u|]; cbn [obind]; try tauto; try (split; discriminate).
  - destruct (generate_salts L nh) as [l|x|u|] eqn:E; cbn [obind]; split; try discriminate. intros _. destruct (generate_salts_no_throw _ _ _ E).
  - split; intros [= ->]; reflexivity.
Qed.

(** * C87: refuted by rate 0 *)
(** with rate 0.000, which no exception refuses, creating the consumer and processing the interest
    convert a negative infinity to an unsigned number *)
Theorem C87_unusable_refused_refuted :
  (forall K, libm_specials (cc_libm K) -> cc_count K = 80 -> cc_rate K = rate 0 -> c_new K = UB UbFloatCast) /\
  (forall K s c3 c4 l, libm_specials (pc_libm K) ->
     let n := pc_sync K ++ [SYNC; number_comp TYPE_GENERIC 80; number_comp TYPE_GENERIC 0; c3; c4] in
     reply_from_store n (pp_pub s) = None -> res (pp_step K (PInterest n l) s) = UB UbFloatCast).
Proof.
  split.
  - intros K Hl Hc Hr. unfold c_new, bloom_new. rewrite Hc, Hr, params_rate_zero by exact Hl. reflexivity.
  - intros K s c3 c4 l Hl n Hr. cbn [pp_step]. unfold dispatch.
    assert (is_prefix (pc_sync K ++ [SYNC]) n = true) as Px
      by (apply is_prefix_iff; exists [number_comp TYPE_GENERIC 80; number_comp TYPE_GENERIC 0; c3; c4]; rewrite <- app_assoc; reflexivity).
    assert (is_prefix (pc_sync K ++ [HELLO]) n = false) as -> by apply is_prefix_snoc_differs, HELLO_SYNC. rewrite Px.
    unfold on_sync_interest. rewrite mbind_get, Hr.
    rewrite (proj2 (sync_request_iff K n n Px) ltac:(exists (number_comp TYPE_GENERIC 80), (number_comp TYPE_GENERIC 0), c3, c4, []; rewrite app_nil_r; auto)).
    rewrite mbind_lift. unfold extract, n. change (SYNC :: ?x) with ([SYNC] ++ x). rewrite app_assoc.
    rewrite !name_get_back_app by (simpl; lia). cbn [name_get_back length Nat.leb Nat.sub name_get nth_error obind].
    unfold bloom_of_comps. rewrite !to_number_number by reflexivity. cbn [obind]. unfold bloom_of_comp, bloom_new. change (w32 80) with 80. fold (rate 0).
    rewrite params_rate_zero by exact Hl. reflexivity.
Qed.
Print Assumptions C87_unusable_refused_refuted.

(** creating a consumer throws exactly for a zero count and for negative or infinite rates; an
    interest with a zero count is ignored *)
Theorem C87_refused_partial :
  (forall K e, c_new K = Throw e <->
     e = ExBloom /\ (cc_count K = 0 \/ SFltb (cc_rate K) (S754_zero false) = true \/ exists s, cc_rate K = S754_infinity s)) /\
  (forall K s c1 c2 c3 c4 tail k r l,
     let n := pc_sync K ++ [SYNC; c1; c2; c3; c4] ++ tail in
     to_number c1 = Ok k -> k mod two32 = 0 -> to_number c2 = Ok r ->
     reply_from_store n (pp_pub s) = None -> pp_step K (PInterest n l) s = (s, [], Ok tt)).
Proof.
  split.
  - intros K e. rewrite <- (bloom_new_throws (cc_libm K)). unfold c_new. destruct (bloom_new _ _ _) as [b|x|u|]; cbn [obind]; try tauto; try (split; discriminate).
    split; intros [= ->]; reflexivity.
  - intros K s c1 c2 c3 c4 tail k r l n H1 H0 H2 Hr. cbn [pp_step]. unfold dispatch.
    assert (is_prefix (pc_sync K ++ [SYNC]) n = true) as Px
      by (apply is_prefix_iff; exists ([c1; c2; c3; c4] ++ tail); rewrite <- app_assoc; reflexivity).
    assert (is_prefix (pc_sync K ++ [HELLO]) n = false) as -> by apply is_prefix_snoc_differs, HELLO_SYNC. rewrite Px.
    unfold on_sync_interest. rewrite mbind_get, Hr. destruct (sync_request _ n) as [rn|] eqn:Eq; [|reflexivity].
    apply (sync_request_iff K n rn Px) in Eq as (d1 & d2 & d3 & d4 & t2 & -> & En & _).
    unfold n in En. rewrite <- app_assoc in En. apply app_inv_head in En. injection En as <- <- <- <- _.
    rewrite mbind_lift. unfold extract. change (SYNC :: ?x) with ([SYNC] ++ x). rewrite app_assoc.
    rewrite !name_get_back_app by (simpl; lia). cbn [name_get_back length Nat.leb Nat.sub name_get nth_error obind].
    unfold bloom_of_comps. rewrite H1, H2. cbn [obind]. unfold bloom_of_comp. 
    assert (bloom_new (pc_libm K) (w32 k) (d_div (d_of_N r) (d_of_N 1000)) = Throw ExBloom) as ->; [|reflexivity].
    apply bloom_new_throws. split; [reflexivity|]. left. exact H0.
Qed.
Print Assumptions C87_refused_partial.

Example C87_example :
  libm_specials (pc_libm Kx) /\
  reply_from_store (pc_sync Kx ++ [SYNC; number_comp TYPE_GENERIC 80; number_comp TYPE_GENERIC 0; number_comp TYPE_GENERIC 2; number_comp TYPE_GENERIC 2]) (pp_pub s_ex) = None /\
  to_number (number_comp TYPE_GENERIC 4294967296) = Ok 4294967296 /\ 4294967296 mod two32 = 0 /\
  reply_from_store (pc_sync Kx ++ [SYNC; number_comp TYPE_GENERIC 4294967296; number_comp TYPE_GENERIC 1; number_comp TYPE_GENERIC 2; number_comp TYPE_GENERIC 2]) (pp_pub s_ex) = None /\
  (exists e, c_new (mkCcfg syncp 0 (rate 1) libm_example env_example) = Throw e) /\
  (exists s, c_new (mkCcfg syncp 1 (rate 1) libm_example env_example) = Ok s).
Proof.
  split; [exact libm_example_specials|]. split; [vm_compute; reflexivity|]. split; [apply to_number_number; reflexivity|]. split; [reflexivity|].
  split; [vm_compute; reflexivity|]. split; [eexists; reflexivity|]. unfold c_new. cbn [cc_libm cc_count cc_rate]. rewrite b_ex_ok. eexists. reflexivity.
Qed.
