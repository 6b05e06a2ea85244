(** Property theorems about requests that cannot be read (C109). *)
From Coq Require Import List NArith ZArith Bool Lia Arith.
From Coq.Strings Require Import Byte.
From Verif Require Import Base BaseFacts Mon MonFacts Murmur Iblt IbltFacts Tlv TlvFacts NMap State Store StoreFacts Codec CodecFacts Producer Bloom SpecBloom BloomFacts
  Properties_Bloom Partial SpecPartial PartialFacts Full SpecFull FullFacts SpecUnread Properties_Iblt Properties_Partial Properties_Full.
Import ListNotations.
Local Open Scope nat_scope.

Lemma no_number_throws c : no_number c -> to_number c = Throw ExNotNumber.
Proof.
  unfold no_number, to_number, is_number. intros H. simpl in H.
  destruct (length (cval c)) as [|[|[|[|[|[|[|[|[|]]]]]]]]]; try reflexivity; exfalso; apply H; tauto.
Qed.
Lemma no_ibf_throws C s n c : no_ibf C s n c -> exists e, snd (initialize C s (iblt_new n) c) = Throw e.
Proof.
  intros H. destruct (C04_initialize C s (iblt_new n) c) as (H1 & H2 & _).
  assert (snd (initialize C s (iblt_new n) c) <> Ok tt) as X.
  { intros E. apply H1 in E as (b & D & L). exact (H b D L). }
  destruct (H2 X) as (_ & [E|[E|E]]); eauto.
Qed.

(** what the handler does with four components it gets to *)
Lemma extract_none_step K s c1 c2 c3 c4 tail l :
  let n := pc_sync K ++ [SYNC; c1; c2; c3; c4] ++ tail in
  ((exists e, bloom_of_comps (pc_libm K) c1 c2 c3 = Throw e) \/
   (exists bf, bloom_of_comps (pc_libm K) c1 c2 c3 = Ok bf) /\ no_ibf (pc_codec K) (pc_scheme K) (pc_n K) c4) ->
  reply_from_store n (pp_pub s) = None -> pp_step K (PInterest n l) s = (s, [], Ok tt).
Proof.
  intros n H Hr. cbn [pp_step]. unfold dispatch.
  assert (is_prefix (pc_sync K ++ [SYNC]) n = true) as Px
    by (apply is_prefix_iff; exists ([c1; c2; c3; c4] ++ tail); rewrite <- app_assoc; reflexivity).
  assert (is_prefix (pc_sync K ++ [HELLO]) n = false) as -> by apply is_prefix_snoc_differs, HELLO_SYNC. rewrite Px.
  unfold on_sync_interest. rewrite mbind_get, Hr. destruct (sync_request _ n) as [rn|] eqn:Eq; [|reflexivity].
  apply (sync_request_iff K n rn Px) in Eq as (d1 & d2 & d3 & d4 & t2 & -> & En & _).
  unfold n in En. rewrite <- app_assoc in En. apply app_inv_head in En. injection En as <- <- <- <- _.
  rewrite mbind_lift. unfold extract. change (SYNC :: ?x) with ([SYNC] ++ x). rewrite app_assoc.
  rewrite !name_get_back_app by (simpl; lia). cbn [name_get_back length Nat.leb Nat.sub name_get nth_error obind].
  destruct H as [(e & ->)|((bf & ->) & H)]; [reflexivity|].
  apply no_ibf_throws in H as (e & H). destruct (initialize _ _ _ _) as [t o]. cbn [snd] in H. subst o. reflexivity.
Qed.

(** C109: a partial-sync producer ignores what is no request: its state stays as it is, nothing is
    sent and nothing is thrown. *)
Theorem C109_producer_ignores : forall K s n l,
  no_request K n -> reply_from_store n (pp_pub s) = None ->
  pp_step K (PInterest n l) s = (s, [], Ok tt).
Proof.
  intros K s n l H. destruct H as [rest L4 L6|c1 c2 c3 c4 tail H|c1 c2 c3 c4 tail k r b H1 H2 Hb Hl|c1 c2 c3 c4 tail bf Hb Ht]; intros Hr.
  - cbn [pp_step]. unfold dispatch.
    assert (is_prefix (pc_sync K ++ [HELLO]) (pc_sync K ++ SYNC :: rest) = false) as -> by apply is_prefix_snoc_differs, HELLO_SYNC.
    assert (is_prefix (pc_sync K ++ [SYNC]) (pc_sync K ++ SYNC :: rest) = true) as ->
      by (apply is_prefix_iff; exists rest; rewrite <- app_assoc; reflexivity).
    unfold on_sync_interest. rewrite mbind_get, Hr. unfold sync_request.
    replace (pc_sync K ++ SYNC :: rest) with ((pc_sync K ++ [SYNC]) ++ rest) by (rewrite <- app_assoc; reflexivity).
    rewrite skipn_app_len. apply Nat.eqb_neq in L4, L6. rewrite L4, L6. reflexivity.
  - apply extract_none_step; [left|exact Hr]. exists ExNotNumber. unfold bloom_of_comps.
    destruct H as [H|H]; [rewrite (no_number_throws _ H); reflexivity|]. rewrite (no_number_throws c2 H).
    unfold to_number. destruct (is_number c1); reflexivity.
  - apply extract_none_step; [left|exact Hr]. exists ExBloom. unfold bloom_of_comps. rewrite H1, H2. cbn [obind].
    unfold bloom_of_comp. unfold w32. rewrite Hb. cbn [obind]. apply N.eqb_neq in Hl. unfold BITS_PER_CHAR. rewrite Hl. reflexivity.
  - apply extract_none_step; [right; eauto|exact Hr].
Qed.
Print Assumptions C109_producer_ignores.

(** C109: under /sync-prefix/hello only /sync-prefix/hello and its segments are answered *)
Theorem C109_hello_ignores : forall K s rest a l,
  let n := pc_sync K ++ HELLO :: rest ++ [a] in
  a <> HELLO -> (forall p b x y z, n = p ++ [b; x; y; z] -> b <> HELLO) -> 4 <= length n ->
  reply_from_store n (pp_pub s) = None ->
  pp_step K (PInterest n l) s = (s, [], Ok tt).
Proof.
  intros K s rest a l n Ha Hb L Hr. cbn [pp_step]. unfold dispatch.
  assert (is_prefix (pc_sync K ++ [HELLO]) n = true) as ->
    by (apply is_prefix_iff; exists (rest ++ [a]); rewrite <- app_assoc; reflexivity).
  unfold on_hello_interest. rewrite mbind_get, Hr.
  assert (is_hello_name n = Ok false) as E; [|rewrite mbind_lift, E; reflexivity].
  unfold is_hello_name, name_get_minus.
  destruct (Nat.leb_spec 1 (length n)); [|lia]. destruct (Nat.leb_spec 4 (length n)); [|lia].
  assert (name_get n (length n - 1) = Ok a) as ->.
  { unfold name_get, n. replace (pc_sync K ++ HELLO :: rest ++ [a]) with ((pc_sync K ++ HELLO :: rest) ++ [a]) by (rewrite <- app_assoc; reflexivity).
    rewrite app_length. cbn [length]. rewrite nth_error_app2 by lia. rewrite Nat.add_sub, Nat.sub_diag. reflexivity. }
  cbn [obind]. destruct (comp_eqb a HELLO) eqn:E1; [apply comp_eqb_eq in E1; contradiction|].
  destruct (skipn (length n - 4) n) as [|b [|x [|y [|z [|]]]]] eqn:E;
    pose proof (skipn_length (length n - 4) n) as Ls; rewrite E in Ls; cbn [length] in Ls; try lia.
  pose proof (firstn_skipn (length n - 4) n) as Es. rewrite E in Es. symmetry in Es.
  assert (name_get n (length n - 4) = Ok b) as ->.
  { unfold name_get. rewrite Es at 1. rewrite nth_error_app2 by (rewrite firstn_length; lia).
    rewrite firstn_length. replace (_ - _) with 0 by lia. reflexivity. }
  cbn [obind]. destruct (comp_eqb b HELLO) eqn:E2; [|reflexivity]. apply comp_eqb_eq in E2. exfalso. exact (Hb _ _ _ _ _ Es E2).
Qed.
Print Assumptions C109_hello_ignores.

(** C109: a full-sync node ignores what is no sync interest; if the count cannot be read the exception
    leaves the handler (C42), and the state stays as it is in this case, too. *)
Theorem C109_node_ignores : forall K s n l,
  reply_from_store n (f_pub s) = None ->
  (no_sync_interest K n ->
   exists r, fp_step K (FeInterest n l) s = (s, [], r) /\ (r = Ok tt \/ r = Throw ExNotNumber)) /\
  (forall c k, n = fc_sync K ++ [c; k] -> no_number k ->
   fp_step K (FeInterest n l) s = (s, [], Throw ExNotNumber)) /\
  (forall c k v, n = fc_sync K ++ [c; k] -> to_number k = Ok v ->
   no_ibf (fc_codec K) (fc_scheme K) (fc_n K) c -> fp_step K (FeInterest n l) s = (s, [], Ok tt)).
Proof.
  intros K s n l Hr.
  assert (forall c k, n = fc_sync K ++ [c; k] -> no_number k ->
    fp_step K (FeInterest n l) s = (s, [], Throw ExNotNumber)) as A.
  { intros c k -> H. cbn [fp_step]. rewrite (proj2 (is_prefix_iff _ _)) by (exists [c; k]; reflexivity).
    unfold on_finterest. rewrite mbind_get, Hr. rewrite skipn_app_len. cbn [length Nat.eqb negb].
    rewrite !name_get_back_app by (simpl; lia). rewrite !mbind_lift.
    cbn [name_get_back length Nat.leb Nat.sub name_get nth_error obind]. rewrite !mbind_lift.
    rewrite (no_number_throws _ H). reflexivity. }
  assert (forall c k v, n = fc_sync K ++ [c; k] -> to_number k = Ok v ->
    no_ibf (fc_codec K) (fc_scheme K) (fc_n K) c -> fp_step K (FeInterest n l) s = (s, [], Ok tt)) as B.
  { intros c k v -> H Hc. cbn [fp_step]. rewrite (proj2 (is_prefix_iff _ _)) by (exists [c; k]; reflexivity).
    unfold on_finterest. rewrite mbind_get, Hr. rewrite skipn_app_len. cbn [length Nat.eqb negb].
    rewrite !name_get_back_app by (simpl; lia). rewrite !mbind_lift.
    cbn [name_get_back length Nat.leb Nat.sub name_get nth_error obind]. rewrite !mbind_lift. rewrite H.
    apply no_ibf_throws in Hc as (e & Hc). destruct (initialize _ _ _ _) as [t o]. cbn [snd] in Hc. subst o. reflexivity. }
  split; [|split; assumption].
  intros H. destruct H as [rest L2 L4|c k Hc].
  - exists (Ok tt). split; [|left; reflexivity]. cbn [fp_step]. rewrite (proj2 (is_prefix_iff _ _)) by (exists rest; reflexivity).
    unfold on_finterest. rewrite mbind_get, Hr. rewrite skipn_app_len. apply Nat.eqb_neq in L2, L4. rewrite L4, L2. reflexivity.
  - unfold to_number in B. destruct (to_number k) as [v|e|u|] eqn:E; unfold to_number in E; destruct (is_number k) eqn:En; try discriminate.
    + exists (Ok tt). split; [|left; reflexivity]. eapply (B c k v eq_refl); [rewrite En; exact E|exact Hc].
    + exists (Throw ExNotNumber). split; [|right; reflexivity]. apply (A c k eq_refl).
      unfold no_number. intros I. unfold is_number in En. simpl in I.
      destruct I as [I|[I|[I|[I|[]]]]]; rewrite <- I in En; discriminate.
Qed.
Print Assumptions C109_node_ignores.

(** a filter of three bytes where the parameters ask for two; a name with a single component; an IBF
    of one byte; a hello interest with a foreign suffix; each at a state with data *)
Example C109_example :
  let short := pc_sync Kx ++ [SYNC; c_one] in
  let wide := pc_sync Kx ++ [SYNC; c_one; c_one; Tlv.mkComp TYPE_GENERIC [x01; x02; x03]; Tlv.mkComp TYPE_GENERIC (table_bytes (iblt_new 10))] ++ [] in
  let rate := pc_sync Kx ++ [SYNC; c_one; Tlv.mkComp TYPE_GENERIC [x01; x02; x03]; all_ones; c_one] ++ [] in
  let tiny := pc_sync Kx ++ [SYNC; c_one; c_one; all_ones; c_one] ++ [] in
  let hello := pc_sync Kx ++ HELLO :: [c_one; c_one; c_one] ++ [c_one] in
  (no_request Kx short /\ reply_from_store short (pp_pub s_ex) = None) /\
  (no_request Kx wide /\ reply_from_store wide (pp_pub s_ex) = None) /\
  (no_request Kx rate /\ reply_from_store rate (pp_pub s_ex) = None) /\
  (no_request Kx tiny /\ reply_from_store tiny (pp_pub s_ex) = None) /\
  ((forall p b x y z, hello = p ++ [b; x; y; z] -> b <> HELLO) /\ 4 <= length hello /\
   reply_from_store hello (pp_pub s_ex) = None) /\
  no_sync_interest Kf (fc_sync Kf ++ [c_one; c_one]) /\ no_sync_interest Kf (fc_sync Kf ++ [c_one]).
Proof.
  assert (no_ibf codec_none SNone 10 c_one) as T by (intros b [= <-]; vm_compute; discriminate).
  cbv zeta. split; [split; [apply no_four; discriminate|vm_compute; reflexivity]|].
  split; [split; [|vm_compute; reflexivity]|].
  { apply (no_filter Kx _ _ _ _ [] 1%N 1%N b_ex); [reflexivity|reflexivity|exact b_ex_ok|vm_compute; discriminate]. }
  split; [split; [|vm_compute; reflexivity]|].
  { apply no_parameters. right. unfold no_number. cbn. lia. }
  split; [split; [|vm_compute; reflexivity]|].
  { apply (no_table Kx _ _ _ _ [] bf_all); [exact bf_all_ok|exact T]. }
  split; [split; [|split; [vm_compute; lia|vm_compute; reflexivity]]|].
  { intros p b x y z E. cbn in E. apply (f_equal (@rev comp)) in E. rewrite rev_app_distr in E. cbn in E.
    injection E as _ _ _ <- _. vm_compute. discriminate. }
  split; [apply not_a_table; exact T|apply not_two; discriminate].
Qed.
