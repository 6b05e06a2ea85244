(** Facts about partial producers. *)
From Coq Require Import List NArith ZArith Bool Lia Arith.
From Coq.Strings Require Import Byte.
From Verif Require Import Base BaseFacts Mon MonFacts Murmur MurmurFacts Iblt IbltFacts PeelFacts SpecIblt
  HonestFacts IbltProps Tlv TlvFacts State NMap NMapFacts Codec CodecFacts Bloom SpecBloom BloomFacts
  Store StoreFacts Producer SpecProducer ProducerFacts Partial SpecPartial.
Import ListNotations.
Local Open Scope N_scope.

(** ** Outcomes without exceptions *)
Definition no_throw {A} (r : outcome A) : Prop := forall e, r <> Throw e.
Lemma no_throw_ok {A} (a : A) : no_throw (Ok a). Proof. intros e. discriminate. Qed.
Lemma no_throw_ub {A} u : no_throw (@UB A u). Proof. intros e. discriminate. Qed.
Lemma no_throw_hang {A} : no_throw (@Hang A). Proof. intros e. discriminate. Qed.
Lemma no_throw_bind {A B} (m : outcome A) (f : A -> outcome B) :
  no_throw m -> (forall a, m = Ok a -> no_throw (f a)) -> no_throw (obind m f).
Proof.
  intros H1 H2 e. destruct m; simpl; try discriminate; [apply H2; auto|].
  intros [= ->]. exact (H1 _ eq_refl).
Qed.
Create HintDb nt.
#[export] Hint Resolve no_throw_ok no_throw_ub no_throw_hang no_throw_bind : nt.

Lemma iblt_update_no_throw t pm k : no_throw (iblt_update t pm k).
Proof.
  intros e. destruct (Nat.eq_dec (Nat.div (length t) 3) 0) as [E|E].
  - rewrite iblt_update_zero by auto. discriminate.
  - destruct (iblt_update_outcomes t pm k E) as [[t' ->] | ->]; discriminate.
Qed.
Lemma core_forget_no_throw nm k : no_throw (core_forget nm k).
Proof.
  unfold core_forget. destruct (bm_right nm (k_bimap k)); auto with nt.
  apply no_throw_bind; [apply iblt_update_no_throw|auto with nt].
Qed.
Lemma core_remove_no_throw p k : no_throw (core_remove p k).
Proof.
  unfold core_remove. destruct (nm_find p (k_prefixes k)); auto using core_forget_no_throw with nt.
Qed.
Lemma core_update_no_throw p s k : no_throw (core_update p s k).
Proof.
  unfold core_update. destruct (nm_find p (k_prefixes k)) as [old|]; auto with nt.
  destruct (s <=? old); auto with nt. apply no_throw_bind.
  - destruct (old =? 0); auto using core_forget_no_throw with nt.
  - intros k1 _. apply no_throw_bind; [apply iblt_update_no_throw|auto with nt].
Qed.
Lemma core_publish_no_throw p s k : no_throw (core_publish p s k).
Proof.
  unfold core_publish. destruct (nm_find p (k_prefixes k)); auto with nt.
  apply no_throw_bind; auto using core_update_no_throw with nt.
Qed.
Lemma table_sub_no_throw l : forall r, no_throw (table_sub l r).
Proof.
  induction l as [|a l IH]; intros [|b r]; simpl; auto with nt.
  apply no_throw_bind; [|intros c _; apply no_throw_bind; auto with nt].
  unfold cell_sub. apply no_throw_bind; auto with nt. unfold sub_i32.
  destruct (in_i32 _); auto with nt.
Qed.
Lemma peel_entry_no_throw j s : no_throw (peel_entry j s).
Proof.
  unfold peel_entry. destruct (nth_error _ j) as [e|]; auto with nt. destruct (is_pure e); auto with nt.
  apply no_throw_bind; auto using iblt_update_no_throw with nt.
Qed.
Lemma peel_pass_no_throw n : forall j s, no_throw (peel_pass n j s).
Proof.
  induction n as [|n IH]; intros j s; simpl; auto with nt.
  apply no_throw_bind; auto using peel_entry_no_throw.
Qed.
Lemma peel_loop_no_throw f : forall s, no_throw (peel_loop f s).
Proof.
  induction f as [|f IH]; intros s; simpl; auto with nt.
  apply no_throw_bind; [apply peel_pass_no_throw|]. intros s' _. destruct (Nat.eqb _ 0); auto with nt.
Qed.
Lemma iblt_sub_no_throw f l r : no_throw (iblt_sub f l r).
Proof.
  unfold iblt_sub. apply no_throw_bind; [apply table_sub_no_throw|]. intros t _.
  apply no_throw_bind; [apply peel_loop_no_throw|auto with nt].
Qed.
Lemma bloom_contains_no_throw b n : no_throw (bloom_contains b n).
Proof.
  unfold bloom_contains. induction (b_salt b) as [|s l IH]; simpl; auto with nt.
  apply no_throw_bind.
  - unfold test_one. apply no_throw_bind.
    + unfold bit_index. destruct (_ =? 0); auto with nt.
    + intros i _. destruct (nth_error _ _); auto with nt.
  - intros x _. destruct x; auto with nt.
Qed.
Lemma matching_no_throw b bf hs : no_throw (matching b bf hs).
Proof.
  induction hs as [|h hs IH]; simpl; auto with nt. destruct (bm_left h b); auto.
  apply no_throw_bind; [apply bloom_contains_no_throw|]. intros x _. apply no_throw_bind; auto with nt.
Qed.
Lemma name_get_no_throw n i : no_throw (name_get n i).
Proof. unfold name_get. destruct (nth_error n i); auto with nt. Qed.
Lemma name_get_back_no_throw n i : no_throw (name_get_back n i).
Proof. unfold name_get_back. destruct (Nat.leb i _); auto using name_get_no_throw with nt. Qed.
Lemma put_segment_no_throw i ds : no_throw (put_segment i ds).
Proof.
  unfold put_segment. apply no_throw_bind; [apply name_get_back_no_throw|]. intros c _.
  apply no_throw_bind.
  - unfold to_segment. destruct (is_segment c); auto with nt.
  - intros k _. destruct (k <? _); auto with nt.
Qed.
Lemma publish_no_throw E now i dn b f p : no_throw (snd (publish E now i dn b f p)).
Proof. apply put_segment_no_throw. Qed.
Lemma scheme_ok_compress C s b : scheme_ok C s -> exists c, compress C s b = Ok c.
Proof. intros [-> | H]; [simpl; eauto|]. unfold compress. destruct s; rewrite ?H; eauto. Qed.
Lemma scheme_ok_append C s n t : scheme_ok C s ->
  exists c, carries_ibf C s c t /\ append_ibf C s n t = Ok (n ++ [c]).
Proof.
  intros H. destruct (scheme_ok_compress C s (table_bytes t) H) as [c E].
  exists (mkComp TYPE_GENERIC c). split; [split; auto|]. unfold append_ibf. rewrite E. reflexivity.
Qed.
Lemma carries_unique C s c c' t : carries_ibf C s c t -> carries_ibf C s c' t -> c = c'.
Proof. intros [T1 H1] [T2 H2]. destruct c, c'. simpl in *. congruence. Qed.
Lemma append_ibf_carries C s n t dn : append_ibf C s n t = Ok dn ->
  exists c, carries_ibf C s c t /\ dn = n ++ [c].
Proof.
  intros H. apply append_ibf_snoc in H as (b & E & ->). exists (mkComp TYPE_GENERIC b).
  split; [split; auto|reflexivity].
Qed.

Lemma initialize_no_UB C s t c t' r : initialize C s t c = (t', r) -> r = Ok tt \/ exists e, r = Throw e.
Proof.
  unfold initialize. destruct (decompress_outcomes C s (cval c)) as [[b ->]|[->| ->]].
  - destruct (Nat.eqb _ _); intros [= <- <-]; eauto.
  - intros [= <- <-]; eauto.
  - intros [= <- <-]; eauto.
Qed.
Lemma extract_no_throw K n : no_throw (extract K n).
Proof.
  unfold extract. repeat (apply no_throw_bind; [apply name_get_back_no_throw|intros ? _]).
  destruct (bloom_of_comps _ _ _ _); auto with nt.
  destruct (initialize _ _ _ _) as [t [u|e|u|]]; auto with nt.
Qed.

(** ** Differences list each key once *)
Lemma nset_insert_In x s y : In y (nset_insert x s) <-> y = x \/ In y s.
Proof.
  induction s as [|z s IH]; simpl; [intuition|].
  destruct (N.compare_spec x z); subst; simpl; rewrite ?IH; intuition.
Qed.
Inductive nsorted : list N -> Prop :=
| nsorted_nil : nsorted []
| nsorted_cons x s : Forall (N.lt x) s -> nsorted s -> nsorted (x :: s).
Lemma nset_insert_sorted x s : nsorted s -> nsorted (nset_insert x s).
Proof.
  induction 1 as [|y s Hy Hs IH]; simpl; [repeat constructor|].
  destruct (N.compare_spec x y); subst.
  - constructor; auto.
  - constructor; [constructor; auto|constructor; auto].
    eapply Forall_impl; [|exact Hy]. simpl. intros. lia.
  - constructor; auto. apply Forall_forall. intros z Hz. apply nset_insert_In in Hz as [->|Hz]; auto.
    rewrite Forall_forall in Hy. auto.
Qed.
Lemma nsorted_NoDup s : nsorted s -> NoDup s.
Proof.
  induction 1 as [|x s Hx Hs IH]; constructor; auto. intros H. rewrite Forall_forall in Hx.
  specialize (Hx _ H). lia.
Qed.
Definition peel_sorted (s : peel) : Prop := nsorted (p_pos s) /\ nsorted (p_neg s).
Lemma peel_pass_sorted n : forall j s s', peel_sorted s -> peel_pass n j s = Ok s' -> peel_sorted s'.
Proof.
  induction n as [|n IH]; intros j s s' Hs; simpl.
  - intros [= <-]; auto.
  - intros H. apply obind_ok in H as (s1 & H1 & H). eapply IH; [|exact H]. clear H IH.
    unfold peel_entry in H1. destruct (nth_error _ j) as [e|]; [|injection H1 as <-; auto].
    destruct (is_pure e); [|injection H1 as <-; auto]. apply obind_ok in H1 as (t & _ & H1).
    injection H1 as <-. destruct Hs. destruct (Z.eqb _ 1); split; simpl; auto using nset_insert_sorted.
Qed.
Lemma peel_loop_sorted f : forall s s', peel_sorted s -> peel_loop f s = Ok s' -> peel_sorted s'.
Proof.
  induction f as [|f IH]; intros s s' Hs; simpl; [discriminate|].
  intros H. apply obind_ok in H as (s1 & H1 & H).
  assert (peel_sorted s1) as H2 by (eapply peel_pass_sorted; [|exact H1]; exact Hs).
  destruct (Nat.eqb _ 0); [injection H as <-; auto|eauto].
Qed.
Lemma iblt_sub_sorted f l r d : iblt_sub f l r = Ok d -> nsorted (positive d) /\ nsorted (negative d).
Proof.
  unfold iblt_sub. intros H. apply obind_ok in H as (t & _ & H). apply obind_ok in H as (s & H & E).
  injection E as <-. simpl. eapply peel_loop_sorted; [|exact H]. split; constructor.
Qed.

(** ** Matching names *)
Lemma matching_total b bf hs : bloom_sound bf -> exists l, matching b bf hs = Ok l.
Proof.
  intros Hb. induction hs as [|h hs [l IH]]; simpl; eauto. destruct (bm_left h b); eauto.
  rewrite bloom_contains_ok by auto. simpl. rewrite IH. simpl. eauto.
Qed.
Lemma matching_In b bf hs l : matching b bf hs = Ok l -> forall nm,
  In nm l <-> exists h, In h hs /\ bm_left h b = Some nm /\
                        bloom_contains bf (name_prefix_back nm 1) = Ok true.
Proof.
  revert l; induction hs as [|h hs IH]; intros l; simpl.
  - intros [= <-] nm. split; [intros []|intros (h & [] & _)].
  - destruct (bm_left h b) as [m|] eqn:E.
    + intros H nm. apply obind_ok in H as (x & Hx & H). apply obind_ok in H as (l0 & H0 & H).
      injection H as <-. specialize (IH l0 H0 nm). destruct x; simpl; rewrite IH.
      * split.
        -- intros [<-|(h' & A & B & C)]; eauto 6.
        -- intros (h' & [<-|A] & B & C); [left; congruence|right; eauto 6].
      * split; [intros (h' & A & B & C); eauto 6|].
        intros (h' & [<-|A] & B & C); [|eauto 6]. congruence.
    + intros H nm. rewrite (IH l H). split; [intros (h' & A & B & C); eauto 6|].
      intros (h' & [<-|A] & B & C); [congruence|eauto 6].
Qed.
Lemma matching_NoDup b bf hs l : NoDup hs ->
  (forall h h' nm, bm_left h b = Some nm -> bm_left h' b = Some nm -> h = h') ->
  matching b bf hs = Ok l -> NoDup l.
Proof.
  intros Hn Hi. revert l; induction Hn as [|h hs Hh Hn IH]; intros l; simpl.
  - intros [= <-]. constructor.
  - destruct (bm_left h b) as [m|] eqn:E; [|auto].
    intros H. apply obind_ok in H as (x & Hx & H). apply obind_ok in H as (l0 & H0 & H).
    injection H as <-. destruct x; auto. constructor; auto. intros Hm.
    apply (matching_In _ _ _ _ H0) in Hm as (h' & A & B & _). rewrite (Hi h h' m E B) in Hh. auto.
Qed.

(** ** Requests *)
Lemma skipn_app_len {A} (a b : list A) : skipn (length a) (a ++ b) = b.
Proof. rewrite skipn_app, skipn_all, Nat.sub_diag. reflexivity. Qed.
Lemma firstn_app_len {A} (a b : list A) : firstn (length a) (a ++ b) = a.
Proof. rewrite firstn_app, firstn_all, Nat.sub_diag. simpl. apply app_nil_r. Qed.
Lemma name_get_back_app (a b : name) k : (k <= length b)%nat ->
  name_get_back (a ++ b) k = name_get_back b k.
Proof.
  intros H. unfold name_get_back, name_get. rewrite app_length.
  destruct (Nat.leb_spec k (length a + length b)); [|lia].
  destruct (Nat.leb_spec k (length b)); [|lia]. destruct k.
  - rewrite !Nat.sub_0_r. rewrite (proj2 (nth_error_None (a ++ b) _)) by (rewrite app_length; lia).
    rewrite (proj2 (nth_error_None b _)) by lia. reflexivity.
  - rewrite nth_error_app2 by lia. replace (length a + length b - S k - length a)%nat
      with (length b - S k)%nat by lia. reflexivity.
Qed.
Lemma extract_some K rname bf t pre c1 c2 c3 c4 : rname = pre ++ [c1; c2; c3; c4] ->
  (extract K rname = Ok (Some (bf, t)) <->
   bloom_of_comps (pc_libm K) c1 c2 c3 = Ok bf /\
   initialize (pc_codec K) (pc_scheme K) (iblt_new (pc_n K)) c4 = (t, Ok tt)).
Proof.
  intros ->. unfold extract. rewrite !name_get_back_app by (simpl; lia).
  cbn [name_get_back length Nat.leb Nat.sub name_get nth_error obind].
  destruct (bloom_of_comps (pc_libm K) c1 c2 c3) as [b|e|u|]; try (split; [discriminate|intros [? _]; discriminate]).
  destruct (initialize _ _ _ c4) as [t' [[]|e|u|]] eqn:E; split; try discriminate.
  - intros [= <- <-]. auto.
  - intros [[= <-] [= <-]]. reflexivity.
  - intros [_ [=]].
  - intros [_ [=]].
  - intros [_ [=]].
Qed.
Lemma sync_request_iff K iname rname : is_prefix (pc_sync K ++ [SYNC]) iname = true ->
  (sync_request (pc_sync K ++ [SYNC]) iname = Some rname <->
   exists c1 c2 c3 c4 tail, rname = pc_sync K ++ [SYNC; c1; c2; c3; c4] /\ iname = rname ++ tail /\
     (length tail = 0%nat \/ length tail = 2%nat)).
Proof.
  intros Hp. apply is_prefix_iff in Hp as [r ->]. unfold sync_request.
  rewrite skipn_app_len.
  assert (Hx : forall a b c d tail : list comp, True) by auto.
  split.
  - destruct (Nat.eqb_spec (length r) 4) as [E|E].
    + intros [= <-]. destruct r as [|c1 [|c2 [|c3 [|c4 [|]]]]]; try discriminate.
      exists c1, c2, c3, c4, []. rewrite <- !app_assoc. simpl. auto.
    + destruct (Nat.eqb_spec (length r) 6) as [E6|E6]; [|discriminate].
      destruct r as [|c1 [|c2 [|c3 [|c4 [|c5 [|c6 [|]]]]]]]; try discriminate.
      intros [= <-]. exists c1, c2, c3, c4, [c5; c6].
      assert (name_prefix_back ((pc_sync K ++ [SYNC]) ++ [c1; c2; c3; c4; c5; c6]) 2 =
              pc_sync K ++ [SYNC; c1; c2; c3; c4]) as ->.
      { unfold name_prefix_back.
        replace ((pc_sync K ++ [SYNC]) ++ [c1; c2; c3; c4; c5; c6])
          with ((pc_sync K ++ [SYNC; c1; c2; c3; c4]) ++ [c5; c6]) by (rewrite <- !app_assoc; reflexivity).
        rewrite app_length. cbn [length]. rewrite Nat.add_sub. apply firstn_app_len. }
      rewrite <- !app_assoc. simpl. auto.
  - intros (c1 & c2 & c3 & c4 & tail & -> & E & [L|L]).
    + destruct tail; [|discriminate]. rewrite app_nil_r in E.
      assert (r = [c1; c2; c3; c4]) as ->.
      { rewrite <- app_assoc in E. apply app_inv_head in E. injection E. auto. }
      simpl. rewrite <- app_assoc. reflexivity.
    + destruct tail as [|c5 [|c6 [|]]]; try discriminate.
      assert (r = [c1; c2; c3; c4; c5; c6]) as ->.
      { rewrite <- !app_assoc in E. apply app_inv_head in E. injection E. auto. }
      simpl. f_equal. unfold name_prefix_back.
      replace ((pc_sync K ++ [SYNC]) ++ [c1; c2; c3; c4; c5; c6])
        with ((pc_sync K ++ [SYNC; c1; c2; c3; c4]) ++ [c5; c6]) by (rewrite <- !app_assoc; reflexivity).
      rewrite app_length. cbn [length]. rewrite Nat.add_sub. apply firstn_app_len.
Qed.
Lemma is_prefix_snoc_differs p a b r : comp_eqb a b = false ->
  is_prefix (p ++ [a]) (p ++ b :: r) = false.
Proof.
  intros H. destruct (is_prefix (p ++ [a]) (p ++ b :: r)) eqn:E; auto.
  apply is_prefix_iff in E as [x E]. rewrite <- app_assoc in E. apply app_inv_head in E.
  injection E as -> _. assert (comp_eqb a a = true) by (apply comp_eqb_eq; auto). congruence.
Qed.

(** ** The producer's own data *)
Lemma satisfy_core K p keys : keeps (fun a b => pp_core b = pp_core a) (satisfy K p keys).
Proof.
  induction keys as [|k keys IH]; simpl.
  - apply keeps_ret. reflexivity.
  - apply keeps_bind; auto; [congruence|]. intros s. unfold satisfy_one, mbind, mget, mlift, mmod, mret, st.
    destruct (nm_find k (pp_pending s)) as [e|]; [|reflexivity].
    destruct (iblt_sub _ _ _) as [d| | |]; try reflexivity. destruct (can_decode d); [|reflexivity]. simpl.
    destruct (bloom_contains _ _) as [x| | |]; try reflexivity.
    destruct (x || _); [|reflexivity]. destruct (append_ibf _ _ _ _); try reflexivity.
    unfold pp_publish. destruct (publish _ _ _ _ _ _ _) as [q [l| | |]]; reflexivity.
Qed.
Lemma pp_publish_core K i dn b f : keeps (fun a b => pp_core b = pp_core a) (pp_publish K i dn b f).
Proof.
  intros s. unfold pp_publish, st. destruct (publish _ _ _ _ _ _ _) as [q [l| | |]]; reflexivity.
Qed.
Ltac kc := first [ apply keeps_ret; reflexivity | apply keeps_get; reflexivity
                 | apply keeps_emit; reflexivity | apply keeps_lift; reflexivity
                 | apply keeps_mod; reflexivity | apply pp_publish_core | apply satisfy_core
                 | apply keeps_bind; [congruence| |intros ?] ].
Lemma dispatch_core K n l : keeps (fun a b => pp_core b = pp_core a) (dispatch K n l).
Proof.
  unfold dispatch, on_hello_interest, on_sync_interest, pp_send_nack.
  destruct (is_prefix _ _); [|destruct (is_prefix _ _)]; repeat kc.
  - destruct (reply_from_store _ _); repeat kc. destruct (_ : bool); repeat kc.
  - destruct (reply_from_store _ _); repeat kc. destruct (sync_request _ _); repeat kc.
    match goal with |- context [match ?x with Some _ => _ | None => _ end] => destruct x as [[bf t]|] end; repeat kc.
    destruct (negb _); repeat kc. destruct (_ || _); repeat kc.
Qed.

Lemma pp_step_core K e s : (forall u, res (pp_step K e s) <> UB u) -> res (pp_step K e s) <> Hang ->
  crun (pp_core s) (core_op e) = Ok (pp_core (st (pp_step K e s))).
Proof.
  intros Hu Hh. destruct e as [p|p|p q|n l|dt|k|i]; simpl core_op.
  - reflexivity.
  - unfold pp_step, mbind, mget, mlift, mmod, st, res in *. simpl.
    pose proof (core_remove_no_throw p (pp_core s)) as Ht.
    destruct (core_remove p (pp_core s)) as [k|e|u|]; simpl in *; auto.
    + destruct (Ht _ eq_refl).
    + destruct (Hu _ eq_refl).
    + destruct (Hh eq_refl).
  - cbn [pp_step] in *. unfold pp_publish_name in *.
    unfold mbind, mget, mlift, mmod, st, res in *. cbn [crun cstep].
    pose proof (core_publish_no_throw p q (pp_core s)) as Ht.
    destruct (core_publish p q (pp_core s)) as [[k o]|e|u|]; simpl in *.
    + destruct o as [v|]; [|reflexivity].
      pose proof (satisfy_core K p (nm_keys (pp_pending s)) (set_core k s)) as Hs. unfold st in Hs.
      destruct (satisfy K p (nm_keys (pp_pending s)) (set_core k s)) as [[s2 o2] r2]. simpl in *.
      rewrite Hs. reflexivity.
    + destruct (Ht _ eq_refl).
    + destruct (Hu _ eq_refl).
    + destruct (Hh eq_refl).
  - simpl crun. cbn [pp_step]. rewrite (dispatch_core K n l s). reflexivity.
  - reflexivity.
  - simpl. unfold expire, st, mmod. simpl. destruct (nm_find k (pp_pending s)) as [e|]; [|reflexivity].
    destruct (pe_expiry e) as [[dl m]|]; [|reflexivity]. destruct (dl <=? _); reflexivity.
  - reflexivity.
Qed.
Lemma pp_run_core K evs : forall s s' o, pp_run K s evs = Some (s', o) ->
  crun (pp_core s) (history evs) = Ok (pp_core s').
Proof.
  induction evs as [|e evs IH]; intros s s' o; unfold pp_run; cbn [run].
  - intros [= <- <-]. reflexivity.
  - pose proof (pp_step_core K e s) as Hc. unfold st, res in Hc.
    destruct (pp_step K e s) as [[s1 o1] [u|x|u|]]; try discriminate; simpl in Hc;
    destruct (run (pp_step K) s1 evs) as [[s2 o2]|] eqn:R; try discriminate; intros [= <- <-];
    cbn [history flat_map]; rewrite crun_app, Hc by congruence; cbn [obind]; eapply IH; exact R.
Qed.
Lemma history_wf evs : Forall pev_wf evs -> Forall cop_wf (history evs).
Proof.
  induction 1 as [|e evs He _ IH]; simpl; [constructor|]. apply Forall_app. split; auto.
  destruct e as [p|p|p [v|]|n l|dt|k|i]; repeat constructor; auto.
Qed.

(** ** Reachable states *)
Definition blobs (p : pub) : Prop := Forall (fun d => d_type d = Blob) (pb_store p).
Record pp_ok (K : pcfg) (s : pp) : Prop := mkPpOk {
  po_sorted : nm_sorted (pp_pending s);
  po_entry : forall key e, nm_find key (pp_pending s) = Some e ->
    sync_request_for K key key (pe_bf e) (pe_iblt e);
  po_blobs : blobs (pp_pub s) }.

Lemma segment_blob E k n b f d : In d (segment E k n b f) -> d_type d = Blob.
Proof. intros H. apply segment_In in H as (i & _ & ->). reflexivity. Qed.
Lemma put_segment_In i ds l : put_segment i ds = Ok l -> incl l ds.
Proof.
  unfold put_segment. intros H. apply obind_ok in H as (c & _ & H). apply obind_ok in H as (k & _ & H).
  destruct (k <? _); [|injection H as <-; intros x []].
  destruct (nth_error ds _) eqn:E; injection H as <-; intros x []; [|contradiction].
  subst. eapply nth_error_In; eauto.
Qed.
Lemma publish_blobs E now i dn b f p p' r : publish E now i dn b f p = (p', r) -> blobs p ->
  blobs p' /\ forall l, r = Ok l -> Forall (fun d => d_type d = Blob) l.
Proof.
  intros H Hb. unfold publish in H. injection H as <- <-. split.
  - apply Forall_forall. intros d Hd. rewrite insert_segments_eq in Hd. simpl in Hd.
    apply fold_insert_In in Hd as [Hd|Hd]; [|eapply segment_blob; eauto].
    unfold blobs in Hb. rewrite Forall_forall in Hb. auto.
  - intros l Hl. apply Forall_forall. intros d Hd. eapply segment_blob. eapply put_segment_In; eauto.
Qed.
Lemma pub_fire_In now i p d : In d (pb_store (pub_fire now i p)) -> In d (pb_store p).
Proof.
  unfold pub_fire. destruct (nth_error (pb_timers p) i) as [[dl n]|]; auto. destruct (dl <=? now); auto.
  simpl. unfold store_erase. intros H. apply filter_In in H. tauto.
Qed.
Lemma pub_fire_blobs now i p : blobs p -> blobs (pub_fire now i p).
Proof.
  unfold blobs. rewrite !Forall_forall. intros H d Hd. apply H. eapply pub_fire_In; eauto.
Qed.
Lemma reply_blob i p d : blobs p -> reply_from_store i p = Some d -> d_type d = Blob.
Proof.
  unfold blobs. rewrite Forall_forall. intros H Hr. apply H. unfold reply_from_store in Hr.
  apply store_find_Some in Hr. tauto.
Qed.

Lemma pp_publish_eq K i dn b f s :
  pp_publish K i dn b f s =
  (set_pub (fst (publish (pc_env K) (pp_now s) i dn b f (pp_pub s))) s,
   match snd (publish (pc_env K) (pp_now s) i dn b f (pp_pub s)) with Ok l => l | _ => [] end,
   match snd (publish (pc_env K) (pp_now s) i dn b f (pp_pub s)) with
   | Ok _ => Ok tt | Throw e => Throw e | UB u => UB u | Hang => Hang end).
Proof. unfold pp_publish. destruct (publish _ _ _ _ _ _ _) as [q [l|e|u|]]; reflexivity. Qed.

Lemma pp_new_ok K : pp_ok K (pp_new K).
Proof.
  constructor; simpl; [constructor|discriminate|constructor].
Qed.
Lemma pp_ok_pub K s p : pp_ok K s -> blobs p -> pp_ok K (set_pub p s).
Proof. intros [A B C] H. constructor; auto. Qed.
Lemma pp_ok_core K s k : pp_ok K s -> pp_ok K (set_core k s).
Proof. intros [A B C]. constructor; auto. Qed.
Lemma pp_ok_erase K s key : pp_ok K s -> pp_ok K (set_pending (nm_erase key (pp_pending s)) s).
Proof.
  intros [A B C]. constructor; simpl; auto.
  - apply nm_erase_sorted; auto.
  - intros k e H. rewrite nm_find_erase in H by auto. destruct (name_eqb k key); [discriminate|auto].
Qed.
Lemma sync_request_for_key K iname rname bf t :
  sync_request_for K iname rname bf t -> sync_request_for K rname rname bf t.
Proof.
  intros (c1 & c2 & c3 & c4 & tail & -> & _ & _ & B & I). exists c1, c2, c3, c4, [].
  rewrite app_nil_r. auto 6.
Qed.
Lemma sync_request_for_fun K i i' r bf t bf' t' :
  sync_request_for K i r bf t -> sync_request_for K i' r bf' t' -> bf = bf' /\ t = t'.
Proof.
  intros (c1 & c2 & c3 & c4 & tail & E & _ & _ & B & I) (d1 & d2 & d3 & d4 & tail' & E' & _ & _ & B' & I').
  rewrite E in E'. apply app_inv_head in E'. injection E' as <- <- <- <-.
  rewrite B in B'. rewrite I in I'. split; congruence.
Qed.
Lemma add_pending_find key bf t x q k : nm_find k (add_pending key bf t x q) =
  if name_eqb k key
  then match nm_find key q with
       | Some e => Some (mkPentry (pe_bf e) (pe_iblt e) (Some x))
       | None => Some (mkPentry bf t (Some x)) end
  else nm_find k q.
Proof. unfold add_pending. destruct (nm_find key q) as [e|]; rewrite nm_find_set; reflexivity. Qed.
Lemma add_pending_sorted key bf t x q : nm_sorted q -> nm_sorted (add_pending key bf t x q).
Proof. intros H. unfold add_pending. destruct (nm_find key q); apply nm_set_sorted; auto. Qed.
Lemma pp_ok_add K s iname rname bf t x : pp_ok K s -> sync_request_for K iname rname bf t ->
  pp_ok K (set_pending (add_pending rname bf t x (pp_pending s)) s).
Proof.
  intros [A B C] H. constructor; simpl; auto using add_pending_sorted.
  intros k e. rewrite add_pending_find. destruct (name_eqb k rname) eqn:E; [|auto].
  apply name_eqb_eq in E. subst k. apply sync_request_for_key in H.
  destruct (nm_find rname (pp_pending s)) as [e0|] eqn:F; intros [= <-]; simpl; auto.
Qed.

(** the effect of a sync interest that is not answered from memory *)
Definition on_request (K : pcfg) (iname rname : name) (lifetime : N) (bf : bloom) (t : table)
  (d : iblt_diff) : PM unit :=
  mlet s <- mget;
  if negb (can_decode d) then pp_send_nack K rname
  else
    mlet content <- mlift (matching (k_bimap (pp_core s)) bf (positive d));
    if Nat.leb (threshold (pc_n K)) (diff_size d) ||
       negb (match content with [] => true | _ => false end)
    then
      mlet dn <- mlift (append_ibf (pc_codec K) (pc_scheme K) rname (k_iblt (pp_core s)));
      pp_publish K iname dn (encode_names content) (pc_sync_fresh K)
    else
      mmod (fun s => set_pending
        (add_pending rname bf t (pp_now s + lifetime, iname) (pp_pending s)) s).
Lemma HELLO_SYNC : comp_eqb HELLO SYNC = false. Proof. reflexivity. Qed.
Lemma SYNC_HELLO : comp_eqb SYNC HELLO = false. Proof. reflexivity. Qed.

Lemma sync_request_prefix K iname rname bf t : sync_request_for K iname rname bf t ->
  is_prefix (pc_sync K ++ [HELLO]) iname = false /\ is_prefix (pc_sync K ++ [SYNC]) iname = true /\
  sync_request (pc_sync K ++ [SYNC]) iname = Some rname /\
  extract K rname = Ok (Some (bf, t)).
Proof.
  intros (c1 & c2 & c3 & c4 & tail & E & -> & L & B & I).
  assert (is_prefix (pc_sync K ++ [SYNC]) (rname ++ tail) = true) as P.
  { apply is_prefix_iff. subst rname. exists ([c1; c2; c3; c4] ++ tail). rewrite <- !app_assoc. reflexivity. }
  split; [|split; [exact P|split]].
  - subst rname. rewrite <- app_assoc. cbn [app]. apply is_prefix_snoc_differs. apply HELLO_SYNC.
  - apply sync_request_iff; auto. exists c1, c2, c3, c4, tail. auto.
  - eapply (extract_some K rname bf t (pc_sync K ++ [SYNC])); [|split; eauto].
    rewrite E, <- app_assoc. reflexivity.
Qed.
Lemma step_request K s iname rname l bf t : sync_request_for K iname rname bf t ->
  reply_from_store iname (pp_pub s) = None ->
  pp_step K (PInterest iname l) s =
  (mlet d <- mlift (iblt_sub (pc_fuel K) (k_iblt (pp_core s)) t); on_request K iname rname l bf t d) s.
Proof.
  intros H Hr. apply sync_request_prefix in H as (H1 & H2 & H3 & H4).
  cbn [pp_step]. unfold dispatch. rewrite H1, H2.
  unfold on_sync_interest. rewrite mbind_get, Hr, H3, mbind_lift, H4, !mbind_lift.
  destruct (iblt_sub _ _ _) as [d| | |]; try reflexivity.
  unfold on_request. rewrite mbind_get. reflexivity.
Qed.
(** every interest is one of these *)
Lemma interest_cases K s n l :
  (exists d, reply_from_store n (pp_pub s) = Some d /\
     pp_step K (PInterest n l) s = (s, [d], Ok tt)) \/
  (reply_from_store n (pp_pub s) = None /\ is_prefix (pc_sync K ++ [HELLO]) n = true) \/
  (reply_from_store n (pp_pub s) = None /\ exists rname bf t, sync_request_for K n rname bf t) \/
  (st (pp_step K (PInterest n l) s) = s /\ outs (pp_step K (PInterest n l) s) = [] /\
   no_throw (res (pp_step K (PInterest n l) s)) /\ forall rname bf t, ~ sync_request_for K n rname bf t).
Proof.
  destruct (is_prefix (pc_sync K ++ [HELLO]) n) eqn:H1.
  - destruct (reply_from_store n (pp_pub s)) as [d|] eqn:R; [|tauto].
    left. exists d. split; auto. cbn [pp_step]. unfold dispatch. rewrite H1.
    unfold on_hello_interest, mbind, mget. rewrite R. reflexivity.
  - destruct (is_prefix (pc_sync K ++ [SYNC]) n) eqn:H2.
    + destruct (reply_from_store n (pp_pub s)) as [d|] eqn:R.
      * left. exists d. split; auto. cbn [pp_step]. unfold dispatch. rewrite H1, H2.
        unfold on_sync_interest, mbind, mget. rewrite R. reflexivity.
      * right. right. destruct (sync_request (pc_sync K ++ [SYNC]) n) as [rname|] eqn:Q.
        -- pose proof (proj1 (sync_request_iff K n rname H2) Q) as (c1 & c2 & c3 & c4 & tail & Er & En & Lt).
           pose proof (extract_no_throw K rname) as Hx.
           destruct (extract K rname) as [[[bf t]|]|e|u|] eqn:X.
           ++ left. split; auto. exists rname, bf, t, c1, c2, c3, c4, tail.
              eapply (extract_some K rname bf t (pc_sync K ++ [SYNC])) in X;
                [|rewrite Er, <- app_assoc; reflexivity]. tauto.
           ++ right. cbn [pp_step]. unfold dispatch. rewrite H1, H2.
              unfold on_sync_interest, mbind, mget, mlift, st, outs, res. rewrite R, Q, X. simpl.
              repeat split; auto with nt. intros rn bf t Hq.
              apply sync_request_prefix in Hq as (_ & _ & Hq & Hx'). congruence.
           ++ destruct (Hx _ eq_refl).
           ++ right. cbn [pp_step]. unfold dispatch. rewrite H1, H2.
              unfold on_sync_interest, mbind, mget, mlift, st, outs, res. rewrite R, Q, X. simpl.
              repeat split; auto with nt. intros rn bf t Hq.
              apply sync_request_prefix in Hq as (_ & _ & Hq & Hx'). congruence.
           ++ right. cbn [pp_step]. unfold dispatch. rewrite H1, H2.
              unfold on_sync_interest, mbind, mget, mlift, st, outs, res. rewrite R, Q, X. simpl.
              repeat split; auto with nt. intros rn bf t Hq.
              apply sync_request_prefix in Hq as (_ & _ & Hq & Hx'). congruence.
        -- right. cbn [pp_step]. unfold dispatch. rewrite H1, H2.
           unfold on_sync_interest, mbind, mget, mlift, st, outs, res. rewrite R, Q. simpl.
           repeat split; auto with nt. intros rn bf t Hq.
           apply sync_request_prefix in Hq as (_ & _ & Hq & _). congruence.
    + right. right. right. cbn [pp_step]. unfold dispatch. rewrite H1, H2. simpl.
      repeat split; auto with nt. intros rn bf t Hq. apply sync_request_prefix in Hq as (_ & Hq & _). congruence.
Qed.
