(** What the events of a partial producer do; used by Properties_Partial. *)
From Coq Require Import List NArith ZArith Bool Arith Lia.
From Verif Require Import Base Mon MonFacts Iblt BaseFacts IbltFacts SpecIblt HonestFacts IbltProps
  Tlv State NMap TlvFacts NMapFacts Codec CodecFacts Bloom SpecBloom BloomFacts Store StoreFacts
  Producer SpecProducer ProducerFacts Partial SpecPartial PartialFacts.
Import ListNotations.
Local Open Scope N_scope.

Lemma pp_publish_ok K i dn b f s s' o r : pp_ok K s -> pp_publish K i dn b f s = (s', o, r) ->
  pp_ok K s' /\ Forall (fun d => d_type d = Blob) o.
Proof.
  intros H E. rewrite pp_publish_eq in E.
  destruct (publish (pc_env K) (pp_now s) i dn b f (pp_pub s)) as [p' r'] eqn:P. simpl in E.
  injection E as <- <- _.
  pose proof (publish_blobs _ _ _ _ _ _ _ _ _ P (po_blobs _ _ H)) as [B O].
  split; [apply pp_ok_pub; auto|]. destruct r'; auto.
Qed.

(** an append that succeeds names the IBF component *)
Lemma append_cases K n t : scheme_ok (pc_codec K) (pc_scheme K) ->
  exists c, append_ibf (pc_codec K) (pc_scheme K) n t = Ok (n ++ [c]) /\
            carries_ibf (pc_codec K) (pc_scheme K) c t.
Proof.
  intros H. destruct (scheme_ok_append (pc_codec K) (pc_scheme K) n t H) as (c & E & A). eauto.
Qed.

(** ** hello *)
Lemma name_get_minus_last (a : name) c : name_get_minus (a ++ [c]) 1 = Ok c.
Proof.
  unfold name_get_minus. rewrite app_length. simpl (length [c]).
  replace (Nat.leb 1 (length a + 1)) with true by (symmetry; apply Nat.leb_le; lia).
  replace (length a + 1 - 1)%nat with (length a) by lia.
  unfold name_get. rewrite nth_error_app2, Nat.sub_diag by lia. reflexivity.
Qed.
Lemma name_get_minus_four (a : name) x y z w : name_get_minus (a ++ [x; y; z; w]) 4 = Ok x.
Proof.
  unfold name_get_minus. rewrite app_length. simpl (length [x; y; z; w]).
  replace (Nat.leb 4 (length a + 4)) with true by (symmetry; apply Nat.leb_le; lia).
  replace (length a + 4 - 4)%nat with (length a) by lia.
  unfold name_get. rewrite nth_error_app2, Nat.sub_diag by lia. reflexivity.
Qed.
Lemma name_get_some n i : (i < length n)%nat -> exists c, name_get n i = Ok c.
Proof.
  intros H. unfold name_get. destruct (nth_error n i) eqn:E; eauto.
  apply nth_error_None in E. lia.
Qed.
Lemma is_hello_total (s n : name) : is_prefix (s ++ [HELLO]) n = true -> exists b, is_hello_name n = Ok b.
Proof.
  intros H. apply is_prefix_iff in H as (tl & ->). unfold is_hello_name.
  destruct tl as [|c tl].
  - rewrite app_nil_r, name_get_minus_last. cbn [obind]. exists true.
    replace (comp_eqb HELLO HELLO) with true by (symmetry; apply comp_eqb_eq; reflexivity). reflexivity.
  - set (n := (s ++ [HELLO]) ++ c :: tl).
    assert (2 <= length n)%nat as L by (subst n; rewrite !app_length; simpl; lia).
    assert (forall k, (k = 1 \/ k = 4)%nat -> exists x, name_get_minus n k = Ok x) as G.
    { intros k Hk. unfold name_get_minus. destruct (Nat.leb k (length n)) eqn:E1.
      - apply Nat.leb_le in E1. apply name_get_some. lia.
      - apply Nat.leb_gt in E1. replace (Nat.leb k (2 * length n)) with true by (symmetry; apply Nat.leb_le; lia).
        apply name_get_some. lia. }
    destruct (G 1%nat) as (x & ->); auto. cbn [obind]. destruct (comp_eqb x HELLO); eauto.
    destruct (G 4%nat) as (y & ->); auto. cbn [obind]. eauto.
Qed.
Lemma step_hello K s n l b : is_prefix (pc_sync K ++ [HELLO]) n = true ->
  reply_from_store n (pp_pub s) = None -> is_hello_name n = Ok b ->
  pp_step K (PInterest n l) s =
  if b then match append_ibf (pc_codec K) (pc_scheme K) (pc_sync K ++ [HELLO]) (k_iblt (pp_core s)) with
            | Ok dn => pp_publish K n dn (encode_names (hello_content (pp_core s))) (pc_hello_fresh K) s
            | Throw e => (s, [], Throw e) | UB u => (s, [], UB u) | Hang => (s, [], Hang) end
  else (s, [], Ok tt).
Proof.
  intros H R B. cbn [pp_step]. unfold dispatch, on_hello_interest.
  rewrite H, mbind_get, R, mbind_lift, B. destruct b; [|reflexivity]. rewrite mbind_lift. reflexivity.
Qed.

(** ** requests *)
Lemma step_nack K s iname rname l bf t d c : scheme_ok (pc_codec K) (pc_scheme K) ->
  sync_request_for K iname rname bf t -> reply_from_store iname (pp_pub s) = None ->
  iblt_sub (pc_fuel K) (k_iblt (pp_core s)) t = Ok d -> can_decode d = false ->
  carries_ibf (pc_codec K) (pc_scheme K) c (k_iblt (pp_core s)) ->
  pp_step K (PInterest iname l) s =
  (set_pub (count_signed (pp_pub s)) s,
   [nack_data (pc_env K) (pb_signed (pp_pub s)) (pc_sync_fresh K) (rname ++ [c])], Ok tt).
Proof.
  intros Sk Hq R D F Hc. rewrite (step_request _ _ _ _ _ _ _ Hq R), mbind_lift, D.
  unfold on_request. rewrite mbind_get, F. cbn [negb]. unfold pp_send_nack.
  rewrite mbind_get, mbind_lift.
  destruct (append_cases K rname (k_iblt (pp_core s)) Sk) as (c' & -> & Hc').
  rewrite (carries_unique _ _ _ _ _ Hc' Hc), mbind_mod. reflexivity.
Qed.
Lemma step_decoded K s iname rname l bf t d names c : scheme_ok (pc_codec K) (pc_scheme K) ->
  sync_request_for K iname rname bf t -> reply_from_store iname (pp_pub s) = None ->
  iblt_sub (pc_fuel K) (k_iblt (pp_core s)) t = Ok d -> can_decode d = true ->
  matching (k_bimap (pp_core s)) bf (positive d) = Ok names ->
  carries_ibf (pc_codec K) (pc_scheme K) c (k_iblt (pp_core s)) ->
  pp_step K (PInterest iname l) s =
  if Nat.leb (threshold (pc_n K)) (diff_size d) || negb (match names with [] => true | _ => false end)
  then pp_publish K iname (rname ++ [c]) (encode_names names) (pc_sync_fresh K) s
  else (set_pending (add_pending rname bf t (pp_now s + l, iname) (pp_pending s)) s, [], Ok tt).
Proof.
  intros Sk Hq R D F M Hc. rewrite (step_request _ _ _ _ _ _ _ Hq R), mbind_lift, D.
  unfold on_request. rewrite mbind_get, F. cbn [negb]. rewrite mbind_lift, M.
  destruct (_ || _); [|reflexivity]. rewrite mbind_lift.
  destruct (append_cases K rname (k_iblt (pp_core s)) Sk) as (c' & -> & Hc').
  rewrite (carries_unique _ _ _ _ _ Hc' Hc). reflexivity.
Qed.

Lemma name_get_back_nonempty (n : name) : n <> [] -> exists c, name_get_back n 1 = Ok c.
Proof.
  intros H. destruct (exists_last H) as (a & c & ->). exists c.
  rewrite (name_get_back_app a [c] 1) by (simpl; lia). reflexivity.
Qed.
(** publishing under an interest's name never fails *)
Lemma put_segment_total i ds : i <> [] -> exists l, put_segment i ds = Ok l.
Proof.
  intros H. unfold put_segment. destruct (name_get_back_nonempty i H) as (c & ->). cbn [obind].
  assert (exists k, (if is_segment c then to_segment c else Ok 0%N) = Ok k) as (k & ->).
  { unfold to_segment. destruct (is_segment c); eauto. }
  cbn [obind]. destruct (k <? _); eauto.
Qed.
Lemma pp_publish_total K i dn b f s : i <> [] -> exists p o,
  publish (pc_env K) (pp_now s) i dn b f (pp_pub s) = (p, Ok o) /\
  pp_publish K i dn b f s = (set_pub p s, o, Ok tt).
Proof.
  intros H. rewrite pp_publish_eq. destruct (publish _ _ _ _ _ _ _) as [p r] eqn:P.
  assert (exists o, r = Ok o) as (o & ->).
  { unfold publish in P. injection P as _ <-. apply put_segment_total; auto. }
  exists p, o. auto.
Qed.
Lemma request_nonempty K iname rname bf t : sync_request_for K iname rname bf t ->
  iname <> [] /\ rname <> [].
Proof.
  intros (c1 & c2 & c3 & c4 & tl & -> & -> & _). split; destruct (pc_sync K); discriminate.
Qed.

(** ** C41 *)
Lemma pp_publish_no_throw K i dn b f s : no_throw (res (pp_publish K i dn b f s)).
Proof.
  rewrite pp_publish_eq. unfold res. cbn [snd].
  pose proof (publish_no_throw (pc_env K) (pp_now s) i dn b f (pp_pub s)) as H.
  intros e E. destruct (snd (publish (pc_env K) (pp_now s) i dn b f (pp_pub s))); try discriminate E.
  eapply H; reflexivity.
Qed.
Ltac nt := unfold res; cbn [snd]; auto with nt.
Lemma step_interest_no_throw K s n l : scheme_ok (pc_codec K) (pc_scheme K) ->
  no_throw (res (pp_step K (PInterest n l) s)).
Proof.
  intros Sk. destruct (interest_cases K s n l) as [(d & _ & ->)|[(R & H)|[(R & rname & bf & t & Hq)|(_ & _ & H & _)]]].
  - nt.
  - destruct (is_hello_total _ _ H) as (b & B). rewrite (step_hello K s n l b H R B).
    destruct b; nt. destruct (append_cases K (pc_sync K ++ [HELLO]) (k_iblt (pp_core s)) Sk) as (c & -> & _).
    apply pp_publish_no_throw.
  - destruct (append_cases K rname (k_iblt (pp_core s)) Sk) as (c & _ & Hc).
    destruct (iblt_sub (pc_fuel K) (k_iblt (pp_core s)) t) as [d|e|u|] eqn:D.
    + destruct (can_decode d) eqn:Cd.
      * destruct (matching (k_bimap (pp_core s)) bf (positive d)) as [names|e|u|] eqn:M.
        -- rewrite (step_decoded _ _ _ _ _ _ _ _ _ _ Sk Hq R D Cd M Hc).
           destruct (_ || _); [apply pp_publish_no_throw|nt].
        -- destruct (matching_no_throw _ _ _ _ M).
        -- rewrite (step_request _ _ _ _ _ _ _ Hq R), mbind_lift, D. unfold on_request.
           rewrite mbind_get, Cd. cbn [negb]. rewrite mbind_lift, M. nt.
        -- rewrite (step_request _ _ _ _ _ _ _ Hq R), mbind_lift, D. unfold on_request.
           rewrite mbind_get, Cd. cbn [negb]. rewrite mbind_lift, M. nt.
      * rewrite (step_nack _ _ _ _ _ _ _ _ _ Sk Hq R D Cd Hc). nt.
    + destruct (iblt_sub_no_throw _ _ _ _ D).
    + rewrite (step_request _ _ _ _ _ _ _ Hq R), mbind_lift, D. nt.
    + rewrite (step_request _ _ _ _ _ _ _ Hq R), mbind_lift, D. nt.
  - exact H.
Qed.

(** ** satisfying pending interests *)
Definition sub (a b : pp) : Prop :=
  forall k e, nm_find k (pp_pending b) = Some e -> nm_find k (pp_pending a) = Some e.
Lemma sub_refl a : sub a a. Proof. intros k e. auto. Qed.
Lemma sub_erase K s k : pp_ok K s -> sub s (set_pending (nm_erase k (pp_pending s)) s).
Proof.
  intros H k' e. cbn. rewrite nm_find_erase by apply H. destruct (name_eqb k' k); [discriminate|auto].
Qed.
Lemma pp_publish_frame K i dn b f s s' o r : pp_publish K i dn b f s = (s', o, r) ->
  pp_pending s' = pp_pending s /\ pp_core s' = pp_core s /\ pp_now s' = pp_now s.
Proof. intros E. rewrite pp_publish_eq in E. injection E as <- _ _. auto. Qed.
Lemma satisfy_one_ok K p key s s' o r : pp_ok K s -> satisfy_one K p key s = (s', o, r) ->
  pp_ok K s' /\ Forall (fun d => d_type d = Blob) o /\ sub s s' /\ pp_now s' = pp_now s.
Proof.
  intros H E. unfold satisfy_one in E. rewrite mbind_get in E.
  assert (pp_ok K s /\ Forall (fun d => d_type d = Blob) [] /\ sub s s /\ pp_now s = pp_now s) as Triv
    by (auto using sub_refl).
  destruct (nm_find key (pp_pending s)) as [e|]; [|injection E as <- <- _; auto].
  rewrite mbind_lift in E. destruct (iblt_sub _ _ _) as [d| | |]; try (injection E as <- <- _; exact Triv).
  destruct (negb _); [injection E as <- <- _; eauto 6 using pp_ok_erase, sub_erase|].
  rewrite mbind_lift in E. destruct (bloom_contains _ _) as [x| | |]; try (injection E as <- <- _; exact Triv).
  destruct (_ || _); [|injection E as <- <- _; exact Triv].
  rewrite mbind_lift in E. destruct (append_ibf _ _ _ _) as [dn| | |]; try (injection E as <- <- _; exact Triv).
  unfold mbind in E at 1.
  match type of E with context [pp_publish ?a ?b ?c ?d ?e ?f] =>
    destruct (pp_publish a b c d e f) as [[s1 o1] r1] eqn:P end.
  pose proof (pp_publish_ok _ _ _ _ _ _ _ _ _ H P) as [H1 B1].
  pose proof (pp_publish_frame _ _ _ _ _ _ _ _ _ P) as (Pp & Pc & Pn).
  assert (sub s s1) as Hsub by (intros k' e'; rewrite Pp; auto).
  destruct r1; try (injection E as <- <- _; auto; fail).
  unfold mmod in E. rewrite app_nil_r in E. injection E as <- <- _.
  split; [auto using pp_ok_erase|]. split; [auto|]. split; [|exact Pn].
  intros k' e' F. apply Hsub. eapply sub_erase; eauto.
Qed.
Lemma satisfy_ok K p keys : forall s s' o r, pp_ok K s -> satisfy K p keys s = (s', o, r) ->
  pp_ok K s' /\ Forall (fun d => d_type d = Blob) o /\ sub s s' /\ pp_now s' = pp_now s.
Proof.
  induction keys as [|k ks IH]; intros s s' o r H E; cbn [satisfy] in E.
  - injection E as <- <- _. auto using sub_refl.
  - unfold mbind in E. destruct (satisfy_one K p k s) as [[s1 o1] r1] eqn:P.
    pose proof (satisfy_one_ok _ _ _ _ _ _ _ H P) as (H1 & B1 & S1 & N1).
    destruct r1; try (injection E as <- <- _; auto; fail).
    destruct (satisfy K p ks s1) as [[s2 o2] r2] eqn:Q. injection E as <- <- _.
    destruct (IH _ _ _ _ H1 Q) as (H2 & B2 & S2 & N2). split; auto. split; [apply Forall_app; auto|].
    split; [|congruence]. intros k' e F. auto.
Qed.
Definition decided (K : pcfg) (p : name) (e : pentry) (s : pp) (seq : N) : Prop :=
  exists f, fate_of K (k_iblt (pp_core s)) p seq e f.
Lemma satisfy_spec K p c seq : scheme_ok (pc_codec K) (pc_scheme K) -> forall keys s,
  pp_ok K s -> NoDup keys -> get_seq p (pp_core s) = Some seq ->
  carries_ibf (pc_codec K) (pc_scheme K) c (k_iblt (pp_core s)) ->
  (forall k, In k keys -> exists e, nm_find k (pp_pending s) = Some e /\ decided K p e s seq) ->
  exists s' o fates,
    satisfy K p keys s = (s', o, Ok tt) /\
    pp_core s' = pp_core s /\ pp_now s' = pp_now s /\
    replies K (pp_now s) c (pp_pub s) (combine keys fates) (pp_pub s') o /\
    Forall2 (fun k f => exists e, nm_find k (pp_pending s) = Some e /\
      fate_of K (k_iblt (pp_core s)) p seq e f /\
      nm_find k (pp_pending s') = match f with Kept => Some e | _ => None end) keys fates /\
    (forall k, ~ In k keys -> nm_find k (pp_pending s') = nm_find k (pp_pending s)).
Proof.
  intros Sk. induction keys as [|k ks IH]; intros s Hs Hn Hq Hc Hd.
  - exists s, [], []. cbn. repeat split; auto.
  - inversion Hn as [|? ? Hk Hn']; subst.
    destruct (Hd k (or_introl eq_refl)) as (e & Fe & f & Hf).
    assert (exists s1 o1, satisfy_one K p k s = (s1, o1, Ok tt) /\ pp_core s1 = pp_core s /\ pp_now s1 = pp_now s /\
      pp_ok K s1 /\
      replies K (pp_now s) c (pp_pub s) [(k, f)] (pp_pub s1) o1 /\
      nm_find k (pp_pending s1) = match f with Kept => Some e | _ => None end /\
      (forall k', k' <> k -> nm_find k' (pp_pending s1) = nm_find k' (pp_pending s)))
      as (s1 & o1 & E1 & C1 & N1 & Ok1 & R1 & F1 & G1).
    { assert (forall s' o r, satisfy_one K p k s = (s', o, r) -> pp_ok K s') as Hok
        by (intros s0 o0 r0 E0; eapply satisfy_one_ok; eauto).
      assert (satisfy_one K p k s = satisfy_one K p k s) as E by reflexivity.
      unfold satisfy_one at 2 in E. rewrite mbind_get, Fe, mbind_lift in E.
      destruct Hf as (d & Hd1 & Hf). rewrite Hd1 in E. destruct (can_decode d).
      - destruct Hf as (x & Hx & ->). cbn [negb] in E. rewrite mbind_lift, Hx in E.
        unfold threshold, diff_size in E.
        destruct (x || Nat.leb (pc_n K / 2) (length (positive d) + length (negative d))) eqn:X.
        + rewrite mbind_lift, Hq in E.
          destruct (append_cases K k (k_iblt (pp_core s)) Sk) as (c' & Ea & Hc').
          rewrite Ea, (carries_unique _ _ _ _ _ Hc' Hc) in E.
          assert (k <> []) as Hne.
          { pose proof (po_entry _ _ Hs _ _ Fe) as Hr. apply request_nonempty in Hr. tauto. }
          destruct (pp_publish_total K k (k ++ [c]) (encode_names (if x then [append_number p seq] else []))
            (pc_sync_fresh K) s Hne) as (q & o & P1 & P2).
          unfold mbind in E at 1. rewrite P2 in E. cbn [mmod] in E. unfold mmod in E.
          rewrite app_nil_r in E. eexists _, _. split; [exact E|].
          split; [reflexivity|]. split; [reflexivity|]. split; [eapply Hok; exact E|].
          assert ((if x then Answered [append_number p seq]
                   else if Nat.leb (pc_n K / 2) (length (positive d) + length (negative d))
                   then Answered [] else Kept) = Answered (if x then [append_number p seq] else [])) as ->.
          { destruct x; auto. cbn [orb] in X. rewrite X. reflexivity. }
          split; [|split].
          * cbn [replies]. exists q, o, []. rewrite app_nil_r. repeat split; auto.
          * cbn. apply nm_find_erase_same. apply Hs.
          * intros k' H. cbn. apply nm_find_erase_other. auto.
        + apply orb_false_iff in X as [-> X]. rewrite X.
          exists s, []. split; [exact E|]. cbn [replies].
          split; [reflexivity|]. split; [reflexivity|]. split; [exact Hs|]. auto.
      - subst f. cbn [negb] in E. unfold mmod in E. eexists _, _. split; [exact E|].
        split; [reflexivity|]. split; [reflexivity|]. split; [eapply Hok; exact E|].
        split; [cbn; auto|]. split; [apply nm_find_erase_same; apply Hs|].
        intros k' H. cbn. apply nm_find_erase_other. auto. }
    destruct (IH s1) as (s2 & o2 & fates & E2 & C2 & N2 & R2 & F2 & G2).
    + exact Ok1.
    + exact Hn'.
    + rewrite C1. exact Hq.
    + rewrite C1. exact Hc.
    + intros k' Hk'. destruct (Hd k' (or_intror Hk')) as (e' & Fe' & Hf').
      exists e'. rewrite G1 by (intros ->; contradiction). split; auto.
      unfold decided in *. rewrite C1. exact Hf'.
    + exists s2, (o1 ++ o2), (f :: fates). cbn [satisfy]. unfold mbind. rewrite E1, E2.
      split; [reflexivity|]. split; [congruence|]. split; [congruence|]. rewrite N1 in R2.
      split.
      { cbn [combine]. cbn [replies] in R1 |- *. destruct f as [|names|].
        - destruct R1 as [E ->]. rewrite <- E. exact R2.
        - destruct R1 as (pm & om & o' & P & [E ->] & ->). rewrite app_nil_r.
          exists pm, om, o2. rewrite E in R2. auto.
        - destruct R1 as [E ->]. rewrite <- E. exact R2. }
      split.
      * constructor.
        -- exists e. split; auto. split; auto. rewrite G2 by auto. exact F1.
        -- assert (forall k', In k' ks -> k' <> k) as Hne by (intros k' H ->; contradiction).
           revert F2 Hne. rewrite C1. clear -G1. induction 1 as [|k' f' ks' fs' (e' & A & B & D) F IH]; intros Hne; constructor.
           ++ exists e'. rewrite <- (G1 k') by (apply Hne; left; auto). auto.
           ++ apply IH. intros; apply Hne; right; auto.
      * intros k' H. rewrite G2 by (intros X; apply H; right; auto). apply G1. intros ->. apply H. left; auto.
Qed.

(** ** What one event does to the pending interests *)
Definition is_nack_step (K : pcfg) (s : pp) (n : name) : Prop :=
  reply_from_store n (pp_pub s) = None /\
  exists rname bf t d, sync_request_for K n rname bf t /\
    iblt_sub (pc_fuel K) (k_iblt (pp_core s)) t = Ok d /\ can_decode d = false.
Definition change (K : pcfg) (e : pev) (s s' : pp) : Prop :=
  forall key x, nm_find key (pp_pending s') = Some x ->
    nm_find key (pp_pending s) = Some x \/
    (exists n l, e = PInterest n l /\ sync_request_for K n key (pe_bf x) (pe_iblt x) /\
                 pe_expiry x = Some (pp_now s + l, n) /\ reply_from_store n (pp_pub s) = None /\
       exists d, iblt_sub (pc_fuel K) (k_iblt (pp_core s)) (pe_iblt x) = Ok d /\ can_decode d = true /\
         matching (k_bimap (pp_core s)) (pe_bf x) (positive d) = Ok [] /\
         (diff_size d < threshold (pc_n K))%nat) \/
    (exists y dl n, e = PExpire key /\ nm_find key (pp_pending s) = Some y /\
       x = mkPentry (pe_bf y) (pe_iblt y) None /\ pe_expiry y = Some (dl, n) /\ n <> key).
Lemma change_same K e s s' : pp_pending s' = pp_pending s -> change K e s s'.
Proof. intros E k x F. rewrite E in F. auto. Qed.
Lemma change_sub K e s s' : sub s s' -> change K e s s'.
Proof. intros H k x F. auto. Qed.

Lemma step_request_cases K s n l rname bf t s' o r : pp_ok K s ->
  sync_request_for K n rname bf t -> reply_from_store n (pp_pub s) = None ->
  pp_step K (PInterest n l) s = (s', o, r) ->
  (pp_ok K s' /\ Forall (fun d => d_type d = Blob) o /\ change K (PInterest n l) s s' /\
   pp_now s' = pp_now s) \/
  (is_nack_step K s n /\ pp_ok K s' /\ change K (PInterest n l) s s' /\ pp_now s' = pp_now s).
Proof.
  intros H Hq R E. rewrite (step_request _ _ _ _ _ _ _ Hq R), mbind_lift in E.
  assert (pp_ok K s /\ Forall (fun d => d_type d = Blob) [] /\ change K (PInterest n l) s s /\
     pp_now s = pp_now s) as Triv by (repeat (split; auto); apply change_same; auto).
  destruct (iblt_sub _ _ _) as [d| | |] eqn:D; try (injection E as <- <- _; left; exact Triv).
  unfold on_request in E. rewrite mbind_get in E. destruct (can_decode d) eqn:Cd; cbn [negb] in E.
  - left. rewrite mbind_lift in E.
    destruct (matching _ _ _) as [names| | |] eqn:M; try (injection E as <- <- _; exact Triv).
    destruct (_ || _) eqn:X.
    + rewrite mbind_lift in E.
      destruct (append_ibf _ _ _ _) as [dn| | |]; try (injection E as <- <- _; exact Triv).
      pose proof (pp_publish_ok _ _ _ _ _ _ _ _ _ H E) as [H1 B1].
      pose proof (pp_publish_frame _ _ _ _ _ _ _ _ _ E) as (Pp & Pc & Pn).
      auto using change_same.
    + injection E as <- <- _. split; [eapply pp_ok_add; eauto|]. split; [constructor|]. split; [|reflexivity].
      apply orb_false_iff in X as [X1 X2]. apply Nat.leb_gt in X1.
      destruct names as [|? ?]; [|discriminate]. clear X2.
      intros key x F. cbn [pp_pending set_pending] in F. rewrite add_pending_find in F.
      destruct (name_eqb key rname) eqn:Ek; [|auto]. apply name_eqb_eq in Ek. subst key. right. left.
      exists n, l. split; auto.
      assert (pe_bf x = bf /\ pe_iblt x = t /\ pe_expiry x = Some (pp_now s + l, n)) as (-> & -> & ->).
      { destruct (nm_find rname (pp_pending s)) as [y|] eqn:Fy; injection F as <-; cbn; auto.
        pose proof (po_entry _ _ H _ _ Fy) as Hy.
        destruct (sync_request_for_fun _ _ _ _ _ _ _ _ Hq Hy). auto. }
      split; [auto|]. split; [auto|]. split; [auto|]. exists d. auto.
  - right. split; [split; auto; exists rname, bf, t, d; auto|].
    unfold pp_send_nack in E. rewrite mbind_get, mbind_lift in E.
    destruct (append_ibf _ _ _ _) as [dn| | |];
      try (injection E as <- _ _; split; [auto|split; [apply change_same; auto|auto]]; fail).
    rewrite mbind_mod in E. injection E as <- _ _. split; [|split; [apply change_same; auto|auto]].
    apply pp_ok_pub; auto. apply H.
Qed.

Lemma pp_step_ok K e s s' o r : pp_ok K s -> pp_step K e s = (s', o, r) ->
  pp_ok K s' /\ change K e s s' /\
  pp_now s' = (match e with PTick dt => pp_now s + dt | _ => pp_now s end) /\
  (Forall (fun d => d_type d = Blob) o \/ exists n l, e = PInterest n l /\ is_nack_step K s n).
Proof.
  intros H E. destruct e as [p|p|p q|n l|dt|key|i].
  - injection E as <- <- _. split; [apply pp_ok_core; auto|]. split; [apply change_same; auto|]. auto.
  - cbn [pp_step] in E. rewrite mbind_get, mbind_lift in E.
    destruct (core_remove p (pp_core s)); injection E as <- <- _;
      (split; [auto using pp_ok_core|]; split; [apply change_same; auto|]; auto).
  - cbn [pp_step] in E. unfold pp_publish_name in E. rewrite mbind_get, mbind_lift in E.
    destruct (core_publish p q (pp_core s)) as [[k x]| | |] eqn:P;
      try (injection E as <- <- _; split; [auto|]; split; [apply change_same; auto|]; auto; fail).
    rewrite mbind_mod in E. cbn [fst snd] in E. destruct x.
    + destruct (satisfy_ok _ _ _ _ _ _ _ (pp_ok_core _ _ k H) E) as (A & B & C & D).
      split; [auto|]. split; [apply change_sub; exact C|]. auto.
    + injection E as <- <- _. split; [auto using pp_ok_core|]. split; [apply change_same; auto|]. auto.
  - destruct (interest_cases K s n l) as [(d & R & E')|[(R & Hh)|[(R & rname & bf & t & Hq)|(E1 & E2 & _)]]].
    + rewrite E' in E. injection E as <- <- _. split; auto. split; [apply change_same; auto|]. split; auto.
      left. constructor; auto. eapply reply_blob; eauto. apply H.
    + destruct (is_hello_total _ _ Hh) as (b & B). rewrite (step_hello K s n l b Hh R B) in E.
      assert (pp_ok K s /\ change K (PInterest n l) s s /\ pp_now s = pp_now s /\
        (Forall (fun d => d_type d = Blob) [] \/
         exists n0 l0, PInterest n l = PInterest n0 l0 /\ is_nack_step K s n0)) as Triv.
      { split; auto. split; [apply change_same; auto|]. auto. }
      destruct b; [|injection E as <- <- _; exact Triv].
      destruct (append_ibf _ _ _ _) as [dn| | |]; try (injection E as <- <- _; exact Triv).
      pose proof (pp_publish_ok _ _ _ _ _ _ _ _ _ H E) as [H1 B1].
      pose proof (pp_publish_frame _ _ _ _ _ _ _ _ _ E) as (Pp & Pc & Pn).
      split; auto. split; [apply change_same; auto|]. auto.
    + destruct (step_request_cases _ _ _ _ _ _ _ _ _ _ H Hq R E) as [(A & B & C & D)|(A & B & C & D)]; eauto 10.
    + rewrite E in E1, E2. cbn in E1, E2. subst. split; auto. split; [apply change_same; auto|]. auto.
  - injection E as <- <- _. split; [constructor; apply H|]. split; [apply change_same; auto|]. auto.
  - injection E as <- <- _. unfold expire.
    assert (pp_ok K s /\ change K (PExpire key) s s /\ pp_now s = pp_now s /\
        (Forall (fun d => d_type d = Blob) [] \/
         exists n0 l0, PExpire key = PInterest n0 l0 /\ is_nack_step K s n0)) as Triv.
    { split; auto. split; [apply change_same; auto|]. auto. }
    destruct (nm_find key (pp_pending s)) as [y|] eqn:F; [|exact Triv].
    destruct (pe_expiry y) as [[dl n]|] eqn:X; [|exact Triv].
    destruct (dl <=? pp_now s); [|exact Triv].
    assert (nm_sorted (nm_set key (mkPentry (pe_bf y) (pe_iblt y) None) (pp_pending s))) as Hso
      by (apply nm_set_sorted; apply H).
    split.
    { constructor; cbn.
      - apply nm_erase_sorted; auto.
      - intros k x Fx. rewrite nm_find_erase in Fx by auto. destruct (name_eqb k n); [discriminate|].
        rewrite nm_find_set in Fx. destruct (name_eqb k key) eqn:Ek; [|apply H; auto].
        apply name_eqb_eq in Ek. subst k. injection Fx as <-. cbn. apply H. auto.
      - apply H. }
    split; [|auto].
    intros k x Fx. cbn in Fx. rewrite nm_find_erase in Fx by auto.
    destruct (name_eqb k n) eqn:En; [discriminate|].
    rewrite nm_find_set in Fx. destruct (name_eqb k key) eqn:Ek; [|auto].
    apply name_eqb_eq in Ek. subst k. injection Fx as <-. right. right.
    exists y, dl, n. repeat split; auto. intros <-. rewrite name_eqb_refl in En. discriminate.
  - injection E as <- <- _. split; [|split; [apply change_same; auto|auto]].
    apply pp_ok_pub; auto. apply pub_fire_blobs. apply H.
Qed.
Lemma pp_run_ok K evs s o : pp_run K (pp_new K) evs = Some (s, o) -> pp_ok K s.
Proof.
  intros E. eapply (run_inv (pp_step K) (pp_ok K)); [|apply pp_new_ok|exact E].
  intros e a Ha. destruct (pp_step K e a) as [[s' o'] r] eqn:P. eapply pp_step_ok; eauto.
Qed.

(** ** After a publication no pending interest matches the prefix *)
Lemma satisfy_one_kept K p k s s' o x : pp_ok K s -> satisfy_one K p k s = (s', o, Ok tt) ->
  nm_find k (pp_pending s') = Some x -> bloom_contains (pe_bf x) p = Ok false.
Proof.
  intros H E F. unfold satisfy_one in E. rewrite mbind_get in E.
  destruct (nm_find k (pp_pending s)) as [e|] eqn:Fe; [|injection E as <- _; congruence].
  rewrite mbind_lift in E. destruct (iblt_sub _ _ _) as [d| | |]; try discriminate E.
  assert (forall q, nm_sorted q -> nm_find k (nm_erase k q) <> Some x) as Hne
    by (intros q Hq Hx; rewrite nm_find_erase_same in Hx by auto; discriminate).
  destruct (negb _). { injection E as <- _. destruct (Hne (pp_pending s)); auto. apply H. }
  rewrite mbind_lift in E. destruct (bloom_contains (pe_bf e) p) as [b| | |] eqn:B; try discriminate E.
  destruct (b || _) eqn:X.
  - rewrite mbind_lift in E. destruct (append_ibf _ _ _ _) as [dn| | |]; try discriminate E.
    unfold mbind in E at 1.
    match type of E with context [pp_publish ?a ?b ?c ?d ?e ?f] =>
      destruct (pp_publish a b c d e f) as [[s1 o1] r1] eqn:P end.
    pose proof (pp_publish_ok _ _ _ _ _ _ _ _ _ H P) as [H1 _].
    destruct r1; try discriminate E. unfold mmod in E. injection E as <- _.
    destruct (Hne (pp_pending s1)); auto. apply H1.
  - apply orb_false_iff in X as [-> _]. injection E as <- _. rewrite Fe in F. injection F as <-. exact B.
Qed.
Lemma satisfy_kept K p keys : forall s s' o k x, pp_ok K s -> satisfy K p keys s = (s', o, Ok tt) ->
  In k keys -> nm_find k (pp_pending s') = Some x -> bloom_contains (pe_bf x) p = Ok false.
Proof.
  induction keys as [|k0 ks IH]; intros s s' o k x H E Hk F; [destruct Hk|].
  cbn [satisfy] in E. unfold mbind in E. destruct (satisfy_one K p k0 s) as [[s1 o1] r1] eqn:P.
  pose proof (satisfy_one_ok _ _ _ _ _ _ _ H P) as (H1 & _).
  destruct r1 as [[]| | |]; try discriminate E.
  destruct (satisfy K p ks s1) as [[s2 o2] r2] eqn:Q. injection E as <- _ ->.
  destruct Hk as [-> |Hk]; [|exact (IH _ _ _ _ _ H1 Q Hk F)].
  pose proof (satisfy_ok _ _ _ _ _ _ _ H1 Q) as (_ & _ & S2 & _).
  exact (satisfy_one_kept _ _ _ _ _ _ _ H P (S2 _ _ F)).
Qed.
Lemma satisfy_one_no_throw K p k s : scheme_ok (pc_codec K) (pc_scheme K) ->
  no_throw (res (satisfy_one K p k s)).
Proof.
  intros Sk. unfold satisfy_one. rewrite mbind_get.
  destruct (nm_find k (pp_pending s)) as [e|]; [|apply no_throw_ok]. rewrite mbind_lift.
  destruct (iblt_sub _ _ _) as [d|ex|u|] eqn:D; try (nt; fail).
  2: { destruct (iblt_sub_no_throw _ _ _ _ D). }
  destruct (negb _); [apply no_throw_ok|]. rewrite mbind_lift.
  destruct (bloom_contains _ _) as [b|ex|u|] eqn:B; try (nt; fail).
  2: { destruct (bloom_contains_no_throw _ _ _ B). }
  destruct (_ || _); [|apply no_throw_ok]. rewrite mbind_lift.
  destruct (append_cases K k (k_iblt (pp_core s)) Sk) as (c & -> & _).
  match goal with |- context [pp_publish ?a ?b ?c ?d ?e ;; _] =>
    pose proof (pp_publish_no_throw a b c d e s) as Hp;
    unfold mbind; destruct (pp_publish a b c d e s) as [[s1 o1] [[]|ex|u|]] end;
    try exact Hp; apply no_throw_ok.
Qed.
Lemma satisfy_no_throw K p keys : scheme_ok (pc_codec K) (pc_scheme K) -> forall s,
  no_throw (res (satisfy K p keys s)).
Proof.
  intros Sk. induction keys as [|k ks IH]; intros s; cbn [satisfy]; [apply no_throw_ok|].
  pose proof (satisfy_one_no_throw K p k s Sk) as H1.
  unfold mbind. destruct (satisfy_one K p k s) as [[s1 o1] [[]|ex|u|]]; try exact H1.
  specialize (IH s1). destruct (satisfy K p ks s1) as [[s2 o2] r2]. exact IH.
Qed.
