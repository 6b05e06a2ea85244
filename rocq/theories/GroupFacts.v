(** Proofs about groups of full-sync nodes on an arbitrary network. *)
From Coq Require Import List NArith ZArith Bool Arith Lia.
From Verif Require Import Base Iblt BaseFacts IbltFacts SpecIblt Mon MonFacts Tlv TlvFacts State SpecTlv StateFacts NMap NMapFacts
  Codec CodecFacts Store SpecStore StoreFacts Producer SpecProducer ProducerFacts Partial SpecPartial PartialFacts PartialSteps
  Full FullTrace SpecFull FullFacts FullSafe FullSteps FullData SpecExchange ExchangeFacts SpecGroup.
Import ListNotations.
Local Open Scope N_scope.

(** ** Histories *)
Lemma had_app n a b p v : had n a p v -> had n (a ++ b) p v.
Proof. intros (pre & post & k & -> & E & G). exists pre, (post ++ b), k. rewrite app_assoc. auto. Qed.
Lemma announced_app n a b p v : announced n a p v -> announced n (a ++ b) p v.
Proof.
  intros (pre & post & q & k & cur & -> & E & G & V). exists pre, (post ++ b), q, k, cur.
  rewrite <- app_assoc. auto.
Qed.
Lemma carried_app n a b nm : carried n a nm -> carried n (a ++ b) nm.
Proof. intros (p & v & E & [H|H]); exists p, v; split; auto using had_app, announced_app. Qed.
Lemma had_now n ops k p v : crun (core_new n) ops = Ok k -> get_seq p k = Some v -> had n ops p v.
Proof. intros H G. exists ops, [], k. rewrite app_nil_r. auto. Qed.

(** where the numbers of a node come from *)
Lemma seq_origin n ops p : forall v, Forall cop_wf ops -> forall k, crun (core_new n) ops = Ok k ->
  get_seq p k = Some v -> v = 0 \/ announced n ops p v \/ In (CUpdate p v) ops.
Proof.
  induction ops as [|o ops IH] using rev_ind; intros v W k E G.
  - injection E as <-. discriminate.
  - apply Forall_app in W as [W Wo]. inversion Wo; subst. rewrite crun_app in E. apply obind_ok in E as (k1 & E1 & E).
    cbn [crun] in E. apply obind_ok in E as (k2 & E2 & E). injection E as <-.
    assert (pfx_ok (k_prefixes k1)) as P1 by (eapply crun_pfx; [apply core_new_pfx|exact W|exact E1]).
    rewrite (get_seq_step p k1 o k2 P1 E2) in G.
    assert (get_seq p k1 = Some v -> v = 0 \/ announced n (ops ++ [o]) p v \/ In (CUpdate p v) (ops ++ [o])) as Old.
    { intros X. destruct (IH v W k1 E1 X) as [Z|[A|A]]; auto using announced_app.
      right. right. apply in_or_app. auto. }
    destruct o as [q|q|q s|q s]; cbn [seq_step] in G.
    + destruct (name_eqb p q); [|auto]. destruct (get_seq p k1) as [u|]; [auto|]. injection G as <-. auto.
    + destruct (name_eqb p q); [discriminate|auto].
    + destruct (name_eqb p q) eqn:Eq; [|auto]. apply name_eqb_eq in Eq. subst q.
      destruct (get_seq p k1) as [u|] eqn:Gu; [|discriminate]. cbn [option_map] in G. injection G as <-.
      destruct (N.max_spec s u) as [[_ M]|[_ M]]; rewrite M in *; [apply Old; auto|].
      right. right. apply in_or_app. right. left. auto.
    + assert (p = q -> forall u, get_seq p k1 = Some u ->
        v = match s with Some x => x | None => (u + 1) mod two64 end -> announced n (ops ++ [CPublish q s]) p v) as New.
      { intros <- u Gu V. exists ops, [], s, k1, u. auto. }
      destruct s as [s|].
      * destruct (name_eqb p q) eqn:Eq; [|auto]. apply name_eqb_eq in Eq.
        destruct (get_seq p k1) as [u|] eqn:Gu; [|discriminate]. cbn [option_map] in G. injection G as <-.
        destruct (N.max_spec s u) as [[_ M]|[_ M]]; rewrite M in *; [apply Old; auto|].
        right. left. eapply New; eauto.
      * destruct (name_eqb p q) eqn:Eq; [|auto]. apply name_eqb_eq in Eq.
        destruct (get_seq p k1) as [u|] eqn:Gu; [|discriminate]. cbn [option_map] in G.
        injection G as <-.
        destruct (N.max_spec ((u + 1) mod two64) u) as [[_ M]|[_ M]]; unfold w64 in *; rewrite M in *; [apply Old; auto|].
        right. left. eapply New; eauto.
Qed.
Lemma had_origin n ops p v : Forall cop_wf ops -> had n ops p v ->
  v = 0 \/ announced n ops p v \/ In (CUpdate p v) ops.
Proof.
  intros W (pre & post & k & -> & E & G). apply Forall_app in W as [W _].
  destruct (seq_origin n pre p v W k E G) as [A|[A|A]]; auto using announced_app.
  right. right. apply in_or_app. auto.
Qed.
Lemma had_lt n ops p v : Forall cop_wf ops -> had n ops p v -> v < two64.
Proof.
  intros W (pre & post & k & -> & E & G). apply Forall_app in W as [W _].
  assert (pfx_ok (k_prefixes k)) as [_ B] by (eapply crun_pfx; [apply core_new_pfx|exact W|exact E]).
  exact (B p v G).
Qed.
Lemma announced_lt n ops p v : Forall cop_wf ops -> announced n ops p v -> v < two64.
Proof.
  intros W (pre & post & q & k & cur & -> & E & G & ->). apply Forall_app in W as [_ W]. inversion W; subst.
  destruct q; auto. apply N.mod_lt. discriminate.
Qed.

(** ** The names in the bimap *)
Lemma bm_erase_incl nm b : incl (bm_erase_right nm b) b.
Proof.
  induction b as [|[h n] b IH]; simpl; [apply incl_refl|]. destruct (name_eqb nm n).
  - apply incl_tl, incl_refl.
  - intros x [<-|H]; [left; auto|right; auto].
Qed.
Lemma forget_bimap nm k k' : core_forget nm k = Ok k' -> incl (k_bimap k') (k_bimap k) /\ k_prefixes k' = k_prefixes k.
Proof.
  unfold core_forget. destruct (bm_right nm (k_bimap k)); [|intros [= <-]; split; auto using incl_refl].
  intros H. apply obind_ok in H as (t & _ & H). injection H as <-. split; auto. apply bm_erase_incl.
Qed.
Lemma update_bimap p s k k' : core_update p s k = Ok k' -> forall x, In x (k_bimap k') ->
  In x (k_bimap k) \/ (x = (name_hash (append_number p s), append_number p s) /\ get_seq p k' = Some s).
Proof.
  unfold core_update, get_seq. destruct (nm_find p (k_prefixes k)) as [old|]; [|intros [= <-]; auto].
  destruct (s <=? old); [intros [= <-]; auto|]. intros H. apply obind_ok in H as (k1 & H1 & H).
  apply obind_ok in H as (t & _ & H). injection H as <-. cbn [k_bimap k_prefixes]. intros x Hx.
  assert (incl (k_bimap k1) (k_bimap k)) as I1.
  { destruct (old =? 0); [injection H1 as <-; apply incl_refl|]. eapply forget_bimap; eauto. }
  unfold bm_insert in Hx. destruct (bm_left _ _); [auto|]. destruct (bm_right _ _); [auto|].
  destruct Hx as [<-|Hx]; auto. right. rewrite nm_find_set_same. auto.
Qed.
Lemma cstep_bimap k o k' : cstep k o = Ok k' -> forall h nm, In (h, nm) (k_bimap k') ->
  In (h, nm) (k_bimap k) \/ exists p v, get_seq p k' = Some v /\ nm = append_number p v /\ h = name_hash nm.
Proof.
  intros H h nm Hx.
  assert (forall p s, core_update p s k = Ok k' -> In (h, nm) (k_bimap k) \/
    exists p v, get_seq p k' = Some v /\ nm = append_number p v /\ h = name_hash nm) as U.
  { intros p s X. destruct (update_bimap _ _ _ _ X _ Hx) as [A|[A B]]; auto. injection A as -> ->. right. eauto. }
  destruct o as [p|p|p s|p s]; cbn [cstep] in H.
  - injection H as <-. unfold core_add in Hx. destruct (nm_find p (k_prefixes k)); auto.
  - left. unfold core_remove in H. destruct (nm_find p (k_prefixes k)) as [s|]; [|injection H as <-; auto].
    apply forget_bimap in H as [I _]. apply I in Hx. exact Hx.
  - eauto.
  - rewrite core_publish_update in H. destruct (nm_find p (k_prefixes k)) as [cur|]; [|injection H as <-; auto].
    unfold omap in H. apply obind_ok in H as (r & H1 & H). apply obind_ok in H1 as (k1 & H1 & H2).
    injection H2 as <-. injection H as <-. cbn [fst] in *. eauto.
Qed.

(** ** What one node puts on the network *)
Record pubn := mkPubn { pn_name : name; pn_names : list name; pn_buf : bytes; pn_fresh : N; pn_signed : nat }.

Lemma data_of_app a b : data_of (a ++ b) = data_of a ++ data_of b.
Proof. induction a as [|[d|n t|l|o] a IH]; simpl; auto. rewrite IH. auto. Qed.
Lemma data_of_In d o : In d (data_of o) <-> In (FoData d) o.
Proof.
  induction o as [|x o IH]; simpl; [tauto|]. destruct x; simpl; rewrite IH; intuition congruence.
Qed.
Lemma data_of_map l : data_of (map FoData l) = l.
Proof. induction l; simpl; congruence. Qed.

Section Node.
Variable K : fcfg.
Let n := fc_n K.
Definition pub_ok (ops : list cop) (x : pubn) : Prop :=
  compress (fc_codec K) (fc_cscheme K) (encode_names (pn_names x)) = Ok (pn_buf x) /\
  NoDup (pn_names x) /\ forall nm, In nm (pn_names x) -> carried n ops nm.
Definition packet (P : list pubn) (d : data) : Prop :=
  exists k x i, nth_error P k = Some x /\ (i < nseg (pn_buf x))%nat /\
    d = seg_data (fc_env K) (pn_signed x) (append_version (pn_name x) (en_version (fc_env K) k))
          (pn_buf x) (pn_fresh x) i.
Definition nack_packet (d : data) : Prop :=
  exists c, d_name d = append_segment (fc_sync K ++ [c]) 0.
Record ninv (P : list pubn) (h : list fout) (s : fp) : Prop := mkNinv {
  ni_wf : Forall cop_wf (ops_of h);
  ni_core : crun (core_new n) (ops_of h) = Ok (f_core s);
  ni_bimap : forall a nm, In (a, nm) (k_bimap (f_core s)) -> a = name_hash nm /\ carried n (ops_of h) nm;
  ni_len : length P = pb_published (f_pub s);
  ni_pub : forall x, In x P -> pub_ok (ops_of h) x;
  ni_store : forall d, In d (pb_store (f_pub s)) -> packet P d;
  ni_data : forall d, In d (data_of h) -> packet P d \/ nack_packet d }.
Definition inv (h : list fout) (s : fp) : Prop := exists P, ninv P h s.

Lemma pub_ok_app a b x : pub_ok a x -> pub_ok (a ++ b) x.
Proof. intros (A & B & C). split; auto. split; auto. intros. apply carried_app. auto. Qed.
Lemma packet_app P Q d : packet P d -> packet (P ++ Q) d.
Proof.
  intros (k & x & i & A & B & C). exists k, x, i. split; [|auto]. rewrite nth_error_app1; auto.
  apply nth_error_Some. congruence.
Qed.

Definition jd {A} (h : list fout) (s : fp) (m : FM A) (Q : A -> list fout -> fp -> Prop) : Prop :=
  inv h s -> inv (h ++ outs (m s)) (st (m s)) /\
    forall a, res (m s) = Ok a -> Q a (h ++ outs (m s)) (st (m s)).
Definition any {A} : A -> list fout -> fp -> Prop := fun _ _ _ => True.

Lemma jd_bind {A B} h s (m : FM A) (f : A -> FM B) Q Q' :
  jd h s m Q -> (forall a o s1, Q a (h ++ o) s1 -> jd (h ++ o) s1 (f a) Q') -> jd h s (mbind m f) Q'.
Proof.
  intros Hm Hf I. destruct (Hm I) as [I1 H1]. unfold mbind, outs, st, res in *.
  destruct (m s) as [[s1 o1] [a|e|u|]]; simpl in *; try (split; [exact I1|discriminate]).
  specialize (Hf a o1 s1 (H1 a eq_refl) I1). unfold outs, st, res in Hf.
  destruct (f a s1) as [[s2 o2] r]. simpl in *. rewrite app_assoc. exact Hf.
Qed.
Lemma jd_seq {A B} h s (m : FM A) (f : A -> FM B) Q' :
  jd h s m any -> (forall a o s1, jd (h ++ o) s1 (f a) Q') -> jd h s (mbind m f) Q'.
Proof. intros Hm Hf. eapply jd_bind; [exact Hm|]. intros. apply Hf. Qed.
Lemma jd_get {B} h s (f : fp -> FM B) Q : jd h s (f s) Q -> jd h s (mbind mget f) Q.
Proof. unfold jd. rewrite mbind_get. auto. Qed.
Lemma jd_lift {A B} h s (r : outcome A) (f : A -> FM B) Q :
  (forall a, r = Ok a -> jd h s (f a) Q) -> jd h s (mbind (mlift r) f) Q.
Proof.
  unfold jd. rewrite mbind_lift. intros H I. destruct r as [a|e|u|]; [apply H; auto|..];
    unfold outs, st, res; simpl; rewrite app_nil_r; split; auto; discriminate.
Qed.
Lemma jd_ret {A} h s (a : A) (Q : A -> list fout -> fp -> Prop) : (inv h s -> Q a h s) -> jd h s (mret a) Q.
Proof.
  intros H I. unfold outs, st, res, mret. simpl. rewrite app_nil_r. split; auto. intros x [= <-]. auto.
Qed.
Lemma jd_stop {A} h s (r : outcome A) : (forall a, r <> Ok a) -> jd h s (mlift r) any.
Proof. intros H I. unfold outs, st, res, mlift. simpl. rewrite app_nil_r. split; auto. intros a E. exfalso. eapply H; eauto. Qed.
Lemma ninv_frame P h s o s' : ninv P h s -> ops_of o = [] -> data_of o = [] -> f_core s' = f_core s -> f_pub s' = f_pub s ->
  ninv P (h ++ o) s'.
Proof.
  intros [A B C D E F G] Eo Ed Ec Ep. split; rewrite ?ops_of_app, ?data_of_app, ?Eo, ?Ed, ?app_nil_r, ?Ec, ?Ep; auto.
Qed.
Lemma jd_frame {A} h s (m : FM A) : ops_of (outs (m s)) = [] -> data_of (outs (m s)) = [] ->
  f_core (st (m s)) = f_core s -> f_pub (st (m s)) = f_pub s -> jd h s m any.
Proof. intros A1 A2 A3 A4 [P I]. split; [|unfold any; auto]. exists P. eapply ninv_frame; eauto. Qed.
Lemma jd_mod h s f : f_core (f s) = f_core s -> f_pub (f s) = f_pub s -> jd h s (mmod f) any.
Proof. intros A B. apply jd_frame; auto. Qed.

(** an operation on the node's own data *)
Lemma jd_op h s o : cop_wf o -> jd h s (fp_op o) (fun _ h1 s1 => h1 = h ++ [FoOp o] /\ cstep (f_core s) o = Ok (f_core s1)).
Proof.
  intros Wo [P [A B C D E F G]]. destruct (fp_op o s) as [[s1 o1] r] eqn:X. unfold outs, st, res. cbn [fst snd].
  apply fp_op_inv in X as [(k & -> & Ek & -> & ->)|(-> & -> & Nr)].
  - assert (crun (core_new n) (ops_of (h ++ [FoOp o])) = Ok k) as Ec.
    { rewrite ops_of_app, crun_app, B. cbn [obind ops_of crun]. rewrite Ek. reflexivity. }
    split; [|intros a _; split; auto]. exists P. split; cbn [f_core f_pub fset_core]; auto.
    + rewrite ops_of_app. apply Forall_app. split; auto. constructor; auto.
    + intros a nm Hx. destruct (cstep_bimap _ _ _ Ek _ _ Hx) as [Old|(p & v & Gs & -> & ->)].
      * apply C in Old as [-> Ca]. split; auto. rewrite ops_of_app. apply carried_app. auto.
      * split; auto. exists p, v. split; auto. left. eapply had_now; eauto.
    + intros x Hx. rewrite ops_of_app. apply pub_ok_app. auto.
    + rewrite data_of_app. cbn [data_of]. rewrite app_nil_r. auto.
  - rewrite app_nil_r. split; [|intros a ->; destruct a; congruence]. exists P. split; auto.
Qed.
Lemma jd_weak {A} h s (m : FM A) (Q Q' : A -> list fout -> fp -> Prop) :
  (forall a h1 s1, Q a h1 s1 -> Q' a h1 s1) -> jd h s m Q -> jd h s m Q'.
Proof. intros H J I. destruct (J I) as [A1 A2]. split; auto. Qed.
Lemma jd_any {A} h s (m : FM A) Q : jd h s m Q -> jd h s m any.
Proof. apply jd_weak. intros. exact I. Qed.
Lemma jd_prefix_seq h s p : jd h s (prefix_seq p) (fun _ h1 s1 => k_bimap (f_core s1) = k_bimap (f_core s)).
Proof.
  unfold prefix_seq. apply jd_get. destruct (get_seq p (f_core s)) eqn:G; [apply jd_ret; auto|].
  eapply jd_bind; [apply jd_op; exact I|]. cbv beta. intros a o s1 [_ Ek]. apply jd_ret. intros _. cbn [cstep] in Ek.
  injection Ek as <-. unfold core_add. destruct (nm_find p _); reflexivity.
Qed.
Lemma jd_draw h s : jd h s (draw K) any.
Proof. apply jd_frame; reflexivity. Qed.
Lemma jd_send h s : jd h s (send_sync_interest K) any.
Proof.
  apply jd_frame; rewrite send_eq; unfold outs, st; destruct (f_wait s); try reflexivity;
    (destruct (sync_name K (f_core s)); [destruct (_ && _)|..]); try reflexivity;
    unfold stopped, sent, stopped; destruct (f_fetcher s); reflexivity.
Qed.

(** a publication *)
Lemma jd_publish h s dn names buf fresh :
  compress (fc_codec K) (fc_cscheme K) (encode_names names) = Ok buf -> NoDup names ->
  (forall nm, In nm names -> carried n (ops_of h) nm) -> jd h s (fp_publish K dn dn buf fresh) any.
Proof.
  intros Co Nd Ca [P [A B C D E F G]]. rewrite fp_publish_eq. unfold outs, st, res. cbn [fst snd].
  split; [|unfold any; auto].
  set (x := mkPubn dn names buf fresh (pb_signed (f_pub s))).
  exists (P ++ [x]).
  assert (forall d, In d (segment (fc_env K) (pb_signed (f_pub s)) (append_version dn (en_version (fc_env K) (pb_published (f_pub s)))) buf fresh) ->
    packet (P ++ [x]) d) as Hs.
  { intros d Hd. apply segment_In in Hd as (i & Hi & ->). exists (length P), x, i.
    rewrite nth_error_app2, Nat.sub_diag by lia. rewrite D. auto. }
  unfold publish. cbn [fst snd]. rewrite insert_segments_eq. cbn [pb_store pb_limit pb_timers pb_published pb_signed].
  split; rewrite ?ops_of_app, ?data_of_app, ?ops_of_data, ?app_nil_r, ?data_of_map; cbn [fset_pub f_core f_pub pb_published pb_store]; auto.
  - rewrite app_length. simpl. lia.
  - intros y Hy. apply in_app_or in Hy as [Hy|[<-|[]]]; auto. split; auto.
  - intros d Hd. apply fold_insert_In in Hd as [Hd|Hd]; [apply packet_app; auto|apply Hs; auto].
  - intros d Hd. apply in_app_or in Hd as [Hd|Hd].
    + destruct (G d Hd); auto using packet_app.
    + left. apply Hs. unfold put_segment in Hd. destruct (name_get_back dn 1) as [c|e|u|]; try contradiction.
      cbn [obind] in Hd. destruct (if is_segment c then to_segment c else Ok 0) as [z|e|u|]; try contradiction.
      cbn [obind] in Hd. destruct (N.ltb _ _); [|contradiction].
      destruct (nth_error _ _) as [y|] eqn:Y; [|contradiction]. destruct Hd as [<-|[]]. eapply nth_error_In; eauto.
Qed.
Lemma jd_data h s dn names fresh : NoDup names -> (forall nm, In nm names -> carried n (ops_of h) nm) ->
  jd h s (send_sync_data K dn names fresh) any.
Proof.
  intros Nd Ca. unfold send_sync_data. apply jd_get. cbv zeta. apply jd_seq.
  { apply jd_frame; destruct (_ && _) eqn:E; try reflexivity; unfold stop_fetcher; rewrite mbind_mod;
      destruct (f_fetcher s); reflexivity. }
  intros _ o s1. apply jd_lift. intros buf Co. apply jd_seq.
  { eapply jd_publish; eauto. intros nm Hn. rewrite ops_of_app. apply carried_app. auto. }
  intros _ o2 s2. destruct (name_eqb _ _); [apply jd_send|apply jd_ret; auto; exact (fun _ => I)].
Qed.
Lemma jd_delete h s x : jd h s (delete_pending x) any.
Proof. apply jd_mod; reflexivity. Qed.
Lemma inv_lookup h s a nm : inv h s -> bm_left a (k_bimap (f_core s)) = Some nm ->
  a = name_hash nm /\ carried n (ops_of h) nm.
Proof. intros [P I] H. apply bm_left_In in H. exact (ni_bimap _ _ _ I _ _ H). Qed.
Lemma lookup_names_In b hs nm : In nm (lookup_names b hs) -> exists a, In a hs /\ bm_left a b = Some nm.
Proof.
  induction hs as [|a hs IH]; simpl; [contradiction|]. destruct (bm_left a b) as [x|] eqn:E.
  - intros [->|H]; [eauto|]. destruct (IH H) as (y & A1 & A2). eauto.
  - intros H. destruct (IH H) as (y & A1 & A2). eauto.
Qed.
Lemma lookup_NoDup h s hs : inv h s -> NoDup hs -> NoDup (lookup_names (k_bimap (f_core s)) hs).
Proof.
  intros I. induction 1 as [|a hs Ha Hn IH]; simpl; [constructor|].
  destruct (bm_left a (k_bimap (f_core s))) as [x|] eqn:E; auto. constructor; auto.
  intros X. apply lookup_names_In in X as (b & Hb & Eb). apply (inv_lookup h s) in E as [-> _]; auto.
  apply (inv_lookup h s) in Eb as [-> _]; auto.
Qed.
Lemma jd_inv {A} h s (m : FM A) Q : (inv h s -> jd h s m Q) -> jd h s m Q.
Proof. intros H I. exact (H I I). Qed.
Lemma jd_fsatisfy u keys : forall h s, carried n (ops_of h) u -> jd h s (fsatisfy K u keys) any.
Proof.
  induction keys as [|k keys IH]; intros h s Cu; cbn [fsatisfy]; [apply jd_ret; exact (fun _ => I)|].
  apply jd_seq; [|intros _ o s1; apply IH; rewrite ops_of_app; apply carried_app; auto].
  unfold fsatisfy_one. apply jd_inv. intros Iv. apply jd_get. destruct (nm_find k (f_pending s)) as [e|]; [|apply jd_ret; exact (fun _ => I)].
  apply jd_lift. intros d Ed. apply PartialFacts.iblt_sub_sorted in Ed as [Sp _].
  apply jd_seq; [|intros; apply jd_delete]. unfold satisfy_content.
  assert (NoDup (lookup_names (k_bimap (f_core s)) (positive d))) as N1 by (eapply lookup_NoDup; eauto using nsorted_NoDup).
  assert (forall nm, In nm (lookup_names (k_bimap (f_core s)) (positive d)) -> carried n (ops_of h) nm) as C1.
  { intros nm Hn. apply lookup_names_In in Hn as (a & _ & Ha). eapply inv_lookup; eauto. }
  destruct (existsb (name_eqb u) _) eqn:Ex.
  - apply jd_data; auto.
  - apply jd_data.
    + apply NoDup_Add with (a := u) (l := lookup_names (k_bimap (f_core s)) (positive d)).
      * rewrite <- (app_nil_r (lookup_names _ _)) at 1. apply Add_app.
      * split; auto. intros Hx. rewrite <- not_true_iff_false in Ex. apply Ex. apply existsb_exists.
        exists u. split; auto. apply name_eqb_refl.
    + intros nm Hn. apply in_app_or in Hn as [Hn|[<-|[]]]; auto.
Qed.
Lemma jd_publish_name h s p q : cop_wf (CPublish p q) -> jd h s (fp_publish_name K p q) any.
Proof.
  intros W. unfold fp_publish_name. apply jd_inv. intros Iv. apply jd_get.
  destruct (get_seq p (f_core s)) as [cur|] eqn:Gs; [|apply jd_ret; exact (fun _ => I)].
  eapply jd_bind; [apply jd_op; exact W|]. cbv beta. intros _ o s1 [Ho _].
  apply jd_seq; [apply jd_mod; reflexivity|]. intros _ o2 s2. apply jd_fsatisfy.
  rewrite ops_of_app. apply carried_app. rewrite Ho, ops_of_app. exists p, (publish_seq cur q). split; auto. right.
  destruct Iv as [P Iv]. exists (ops_of h), [], q, (f_core s), cur. split; auto. split; [apply Iv|]. auto.
Qed.
Lemma jd_api h s a : cop_wf (api_op a) -> jd h s (api_call K a) any.
Proof.
  intros W. destruct a as [p|p|p q]; cbn [api_call]; [eapply jd_any, jd_op; exact W|eapply jd_any, jd_op; exact W|].
  apply jd_publish_name; exact W.
Qed.
Lemma jd_apis l : forall h s, Forall (fun a => cop_wf (api_op a)) l -> jd h s (api_calls K l) any.
Proof.
  induction l as [|a l IH]; intros h s W; cbn [api_calls]; [apply jd_ret; exact (fun _ => I)|].
  inversion W; subst. apply jd_seq; [apply jd_api; auto|auto].
Qed.
Lemma jd_schedule h s : jd h s (schedule_waiting K) any.
Proof. apply jd_frame; rewrite schedule_eq; unfold outs, st; cbn [fst snd]; destruct (f_waiting s); try reflexivity; destruct (f_delay s); reflexivity. Qed.
Lemma jd_future h s p neg : jd h s (is_future K p neg) (fun _ _ s1 => k_bimap (f_core s1) = k_bimap (f_core s)).
Proof.
  unfold is_future. apply jd_lift. intros u _. eapply jd_bind; [apply jd_prefix_seq|]. cbv beta.
  intros v o s1 E. apply jd_ret. auto.
Qed.
Lemma jd_offered neg hs : NoDup hs -> forall h s, jd h s (offered K neg hs)
  (fun l h1 _ => NoDup l /\ forall nm, In nm l -> In (name_hash nm) hs /\ carried n (ops_of h1) nm).
Proof.
  induction 1 as [|a hs Ha Hn IH]; intros h s; cbn [offered].
  - apply jd_ret. intros _. split; [constructor|intros nm []].
  - apply jd_inv. intros Iv. apply jd_get. destruct (bm_left a (k_bimap (f_core s))) as [nm|] eqn:E.
    + cbv zeta. destruct (inv_lookup h s a nm Iv E) as [-> Ca].
      eapply jd_bind; [eapply jd_any, jd_prefix_seq|]. intros v o1 s1 _.
      apply jd_seq; [destruct (v =? 0); [apply jd_ret; exact (fun _ => I)|eapply jd_any, jd_future]|]. intros b o2 s2.
      eapply jd_bind; [apply IH|]. cbv beta. intros l o3 s3 [N1 C1]. apply jd_ret. intros _.
      rewrite !ops_of_app in C1 |- *.
      assert (forall x, In x l -> In (name_hash x) (name_hash nm :: hs) /\
        carried n (((ops_of h ++ ops_of o1) ++ ops_of o2) ++ ops_of o3) x) as C2.
      { intros x Hx. destruct (C1 x Hx). split; [right|]; auto. }
      destruct b; [split; auto|]. split.
      * constructor; auto. intros X. apply C1 in X as [X _]. auto.
      * intros x [<-|Hx]; auto. split; [left; auto|]. rewrite <- !app_assoc. apply carried_app. auto.
    + eapply jd_weak; [|apply IH]. cbv beta. intros l h1 s1 [N1 C1]. split; auto. intros nm Hn'.
      destruct (C1 nm Hn'). split; [right|]; auto.
Qed.
Lemma jd_mark h s x : jd h s (mark_waiting x) any.
Proof. apply jd_mod; destruct (nm_find x (f_waiting s)); reflexivity. Qed.
Lemma jd_start h s x : jd h s (start_waiting K x) any.
Proof. unfold start_waiting. apply jd_seq; [apply jd_mod; reflexivity|intros; apply jd_schedule]. Qed.
Lemma jd_done {A} h s (a : A) : jd h s (mret a) any.
Proof. apply jd_ret. exact (fun _ => I). Qed.
Lemma jd_undecodable h s x timed rcvd d : jd h s (on_undecodable K x timed rcvd d) any.
Proof.
  unfold on_undecodable. apply jd_inv. intros Iv. apply jd_get. cbv zeta. destruct (_ <? rcvd).
  - destruct timed, (nm_find x (f_waiting s)) as [tries|]; try apply jd_done; [|apply jd_start].
    destruct (1 <? tries); [|apply jd_done]. apply jd_seq; [apply jd_mark|intros; apply jd_send].
  - destruct (_ && _); [apply jd_done|]. apply jd_seq; [|intros; apply jd_mark].
    assert (NoDup (entire_state (f_core s)) /\ forall nm, In nm (entire_state (f_core s)) -> carried n (ops_of h) nm) as [N1 C1].
    { destruct Iv as [P Iv].
      assert (kfine (f_core s)) as Kf by (eapply crun_pfx; [apply core_new_pfx|apply Iv|apply Iv]).
      split; [apply (live_NoDup (f_core s) Kf)|].
      intros nm Hn. apply (live_kn (f_core s) nm Kf) in Hn as (p & Hz & ->). exists p, (kn (f_core s) p). split; auto.
      left. eapply had_now; [apply Iv|apply kn_some; auto]. }
    destruct (entire_state (f_core s)) as [|y l]; [apply jd_done|].
    apply jd_seq; [apply jd_data; auto|intros; apply jd_delete].
Qed.
Lemma jd_decoded h s x lf timed t d : NoDup (positive d) -> jd h s (on_decoded K x lf timed t d) any.
Proof.
  intros Np. unfold on_decoded. apply jd_get. cbv zeta.
  assert (forall h s, jd h s (mlet l0 <- offered K (negative d) (positive d);
    match l0 with [] => mret tt | _ :: _ => send_sync_data K x l0 (fc_fresh K) ;; mark_waiting x end) any) as H.
  { intros h0 s0. eapply jd_bind; [apply jd_offered; auto|]. cbv beta. intros l o s1 [N1 C1].
    destruct l as [|y l]; [apply jd_done|]. apply jd_seq; [apply jd_data; auto|intros; apply jd_mark].
    intros nm Hn. apply C1; auto. }
  destruct (positive d) as [|a hs]; [|destruct (negative d); apply H].
  destruct (negative d) as [|g gs].
  - apply jd_seq; [apply jd_mod; reflexivity|]. intros. destruct timed; [apply jd_mark|apply jd_done].
  - destruct timed, (nm_find x (f_waiting s)) as [tries|]; try apply jd_done; [|apply jd_start].
    destruct (1 <? tries); [apply jd_mark|apply jd_done].
Qed.
Lemma jd_finterest h s x lf timed : jd h s (on_finterest K x lf timed) any.
Proof.
  unfold on_finterest. apply jd_get. destruct (reply_from_store x (f_pub s)) as [d|] eqn:Er.
  { intros [P [A B C D E F G]]. split; [|exact (fun _ _ => I)]. unfold outs, st, memit. cbn [fst snd]. exists P.
    split; rewrite ?ops_of_app, ?data_of_app; cbn [ops_of data_of]; rewrite ?app_nil_r; auto.
    intros y Hy. apply in_app_or in Hy as [Hy|[<-|[]]]; auto. left. apply F.
    unfold reply_from_store in Er. apply store_find_Some in Er. apply Er. }
  cbv zeta. destruct (Nat.eqb _ 4).
  { unfold fp_send_nack. apply jd_get. apply jd_lift. intros dn Edn. apply append_ibf_carries in Edn as (c & _ & ->).
    intros [P [A B C D E F G]]. split; [|exact (fun _ _ => I)]. rewrite mbind_mod. unfold outs, st, memit. cbn [fst snd]. exists P.
    split; rewrite ?ops_of_app, ?data_of_app; cbn [ops_of data_of f_core f_pub fset_pub count_signed pb_published pb_store]; rewrite ?app_nil_r; auto.
    intros y Hy. apply in_app_or in Hy as [Hy|[<-|[]]]; auto. right. exists c. reflexivity. }
  destruct (negb _); [apply jd_done|]. apply jd_lift. intros c Hc. apply jd_lift. intros c1 Hc1. apply jd_lift. intros rcvd Hr.
  destruct (initialize _ _ _ _) as [t [u|e|u|]]; [|apply jd_done|apply jd_stop; discriminate|apply jd_stop; discriminate].
  apply jd_lift. intros d Ed. apply PartialFacts.iblt_sub_sorted in Ed as [Sp _].
  destruct (can_decode d); [apply jd_decoded, nsorted_NoDup; auto|apply jd_undecodable].
Qed.
Lemma jd_process keys : forall h s, jd h s (process_all K keys) any.
Proof.
  induction keys as [|k keys IH]; intros h s; cbn [process_all]; [apply jd_done|]. apply jd_seq; [|auto].
  unfold process_one. apply jd_get. destruct (nm_find k (f_waiting s)) as [tries|]; [|apply jd_done]. cbv zeta.
  destruct (tries =? MAX_TRIES); [apply jd_mod; reflexivity|].
  apply jd_seq; [apply jd_mod; reflexivity|]. intros _ o1 s1. apply jd_seq; [apply jd_finterest|]. intros _ o2 s2.
  apply jd_get. destruct (nm_find k (f_waiting s2)) as [t1|]; [|apply jd_done].
  destruct (t1 =? MAX_TRIES); [apply jd_mod; reflexivity|apply jd_done].
Qed.
Lemma jd_waiting h s : jd h s (process_waiting K) any.
Proof. unfold process_waiting. apply jd_get. apply jd_process. Qed.
Lemma jd_take names : forall h s, jd h s (take_updates names) any.
Proof.
  induction names as [|c names IH]; intros h s; cbn [take_updates]; [apply jd_done|].
  apply jd_lift. intros x _. apply jd_lift. intros v Hv. cbv zeta. apply jd_get.
  destruct (match get_seq _ _ with None => true | Some cur => cur <? v end); [|apply IH].
  eapply jd_bind; [eapply jd_any, jd_prefix_seq|]. intros cur o1 s1 _.
  eapply jd_bind; [eapply jd_any, jd_op; cbn [cop_wf]; eapply to_number_lt; eauto|]. intros _ o2 s2 _.
  eapply jd_bind; [apply IH|]. intros l o3 s3 _. apply jd_done.
Qed.
Lemma jd_content h s x buf script : Forall (fun a => cop_wf (api_op a)) script ->
  jd h s (on_sync_data K x buf script) any.
Proof.
  intros W. unfold on_sync_data. apply jd_seq; [apply jd_delete|]. intros _ o1 s1.
  destruct (obind _ _) as [names|e|u|]; [|apply jd_done|apply jd_stop; discriminate|apply jd_stop; discriminate].
  apply jd_seq; [apply jd_take|]. intros l o2 s2. destruct l as [|m l].
  - apply jd_seq; [apply jd_mod; reflexivity|]. intros. apply jd_seq; [apply jd_draw|]. intros. apply jd_mod; reflexivity.
  - apply jd_seq; [apply jd_frame; reflexivity|]. intros. apply jd_seq; [apply jd_apis; auto|]. intros.
    apply jd_seq; [apply jd_draw|]. intros. apply jd_seq; [apply jd_mod; reflexivity|]. intros. apply jd_waiting.
Qed.
Theorem step_inv h s e : fev_wf e -> inv h s -> inv (h ++ outs (fp_step K e s)) (st (fp_step K e s)).
Proof.
  intros W Iv.
  assert (jd h s (fp_step K e) any) as J; [|apply J; exact Iv].
  clear Iv. unfold fev_wf in W.
  destruct e as [a|x l|i buf script|i face|i timeout|dt|t| | |key|i]; cbn [fp_step].
  - apply jd_api. inversion W; auto.
  - destruct (is_prefix _ _); [apply jd_finterest|apply jd_done].
  - apply jd_get. destruct (fetch_of i (f_live s)); [|apply jd_done].
    apply jd_seq; [apply jd_mod; reflexivity|]. intros. apply jd_content.
    cbn [ev_ops] in W. rewrite Forall_map in W. exact W.
  - apply jd_get. destruct (fetch_of i (f_live s)); [apply jd_mod; reflexivity|apply jd_done].
  - apply jd_get. destruct (fetch_of i (f_live s)); [|apply jd_done].
    apply jd_seq; [apply jd_mod; reflexivity|]. intros. destruct timeout; [apply jd_done|].
    apply jd_seq; [apply jd_draw|]. intros. apply jd_mod; reflexivity.
  - apply jd_mod; reflexivity.
  - apply jd_mod; reflexivity.
  - apply jd_get. destruct (f_sched s) as [[dl k]|]; [|apply jd_done]. destruct (dl <=? _); [|apply jd_done].
    apply jd_seq; [apply jd_mod; reflexivity|]. intros. destruct k; [apply jd_send|].
    apply jd_seq; [apply jd_mod; reflexivity|intros; apply jd_send].
  - apply jd_get. destruct (f_delay s) as [dl|]; [|apply jd_done]. destruct (dl <=? _); [|apply jd_done].
    apply jd_seq; [apply jd_mod; reflexivity|]. intros. apply jd_seq; [apply jd_waiting|intros; apply jd_schedule].
  - apply jd_mod; destruct (nm_find key (f_pending s)) as [x|]; try reflexivity; destruct (_ <=? _); reflexivity.
  - intros [P [A B C D E F G]]. split; [|exact (fun _ _ => I)]. unfold outs, st, mmod. cbn [fst snd]. exists P. rewrite app_nil_r.
    split; cbn [fset_pub f_core f_pub]; auto.
    + unfold pub_fire. destruct (nth_error _ i) as [[dl y]|]; auto. destruct (N.leb _ _); auto.
    + intros d Hd. apply F. unfold pub_fire in Hd. destruct (nth_error _ i) as [[dl y]|]; auto. destruct (N.leb _ _); auto.
      cbn [pb_store] in Hd. unfold store_erase in Hd. apply filter_In in Hd. apply Hd.
Qed.
Lemma init_inv sys s o : reaches K sys [] s o -> inv o s.
Proof.
  intros [_ R]. apply start_inv in R as (s0 & o0 & o1 & E & R & ->). injection R as <- <-. rewrite app_nil_r.
  rewrite init_eq in E. destruct (sync_name K _); try discriminate. injection E as <- <-.
  exists []. split; cbn; auto; try contradiction; intros; contradiction.
Qed.
End Node.

(** ** The names a node fetches *)
Definition fetch_names (K : fcfg) (s : fp) : Prop :=
  forall i x, In (i, x) (f_live s) -> length x = S (S (length (fc_sync K))).
Definition fetch_rel (K : fcfg) (s : fp) (_ : list fout) (s' : fp) : Prop := fetch_names K s -> fetch_names K s'.
Lemma without_In j (l : list (nat * name)) x : In x (without j l) -> In x l.
Proof. unfold without. intros H. apply filter_In in H. apply H. Qed.
Lemma fetch_stopped K s : fetch_names K s -> fetch_names K (stopped s).
Proof.
  intros H. unfold stopped. destruct (f_fetcher s) as [j|]; auto. intros i x Hx. cbn [f_live fset_live] in Hx.
  apply without_In in Hx. eauto.
Qed.
Lemma fetch_trans K s o s1 o1 s2 : fetch_rel K s o s1 -> fetch_rel K s1 o1 s2 -> fetch_rel K s (o ++ o1) s2.
Proof. unfold fetch_rel. auto. Qed.
Lemma fetch_send K s : fetch_rel K s (outs (send_sync_interest K s)) (st (send_sync_interest K s)).
Proof.
  intros H. rewrite send_eq. destruct (f_wait s); [exact H|].
  destruct (sync_name _ _) as [x|e|u|] eqn:E; try (apply fetch_stopped; exact H).
  destruct (_ && _); [apply fetch_stopped; exact H|]. cbn [st fst]. intros i y.
  change (f_live (sent K x (stopped s))) with ((f_started (stopped s), x) :: f_live (stopped s)).
  intros [Hx|Hx]; [|apply (fetch_stopped K s H) in Hx; exact Hx]. injection Hx as _ <-.
  apply sync_name_asks in E as (c & _ & ->). rewrite app_length. simpl. lia.
Qed.
Lemma fetch_closed K ok : closed K ok (fetch_rel K).
Proof.
  split; intros; try (intros ?X; exact X); try apply fetch_send.
  - eapply fetch_trans; eauto.
  - apply data_closed; intros; try (intros ?X; exact X).
    + eapply fetch_trans; eauto.
    + apply fetch_send.
    + intros H1 j x Hx. cbn [f_live fset_live fset_outstanding] in Hx. apply without_In in Hx. eauto.
  - apply start_closed; intros; try (intros ?X; exact X). eapply fetch_trans; eauto.
  - apply arm_closed; intros; try (intros ?X; exact X). eapply fetch_trans; eauto.
Qed.
Lemma fetch_events K : closed_events (fetch_rel K).
Proof.
  split; intros; try (intros ?X; exact X). intros H1 j x Hx. cbn [f_live fset_live] in Hx. apply without_In in Hx. eauto.
Qed.
Lemma step_fetch K e s : fetch_names K s -> fetch_names K (st (fp_step K e s)).
Proof.
  apply (tr_step K (fun _ => True) (fetch_rel K) (fetch_closed K _)); auto; try apply fetch_events; try (intros; intros ?X; exact X).
  apply Forall_forall. auto.
Qed.
Lemma fetch_of_In i l x : fetch_of i l = Some x -> In (i, x) l.
Proof.
  induction l as [|[j y] l IH]; simpl; [discriminate|]. destruct (Nat.eqb_spec i j) as [->|]; [intros [= ->]; auto|auto].
Qed.

(** ** Publications are counted *)
Definition pubs_rel (s : fp) (_ : list fout) (s' : fp) : Prop := (pb_published (f_pub s) <= pb_published (f_pub s'))%nat.
Lemma pubs_trans s o s1 o1 s2 : pubs_rel s o s1 -> pubs_rel s1 o1 s2 -> pubs_rel s (o ++ o1) s2.
Proof. unfold pubs_rel. lia. Qed.
Lemma pubs_publish E now i dn b f p : (pb_published p <= pb_published (fst (publish E now i dn b f p)))%nat.
Proof. unfold publish. cbn [fst]. rewrite insert_segments_eq. cbn [pb_published]. lia. Qed.
Lemma pubs_send K s : pubs_rel s (outs (send_sync_interest K s)) (st (send_sync_interest K s)).
Proof.
  unfold pubs_rel. rewrite send_eq. destruct (f_wait s); [apply le_n|].
  destruct (sync_name _ _) as [n|e|u|]; try (cbn [st fst]; rewrite stopped_pub; apply le_n).
  destruct (_ && _); cbn [st fst]; unfold sent; cbn; rewrite stopped_pub; apply le_n.
Qed.
Lemma pubs_closed K ok : closed K ok pubs_rel.
Proof.
  split; intros; try apply le_n; try apply pubs_send.
  - eapply pubs_trans; eauto.
  - apply pubs_publish.
  - apply data_closed; intros; try apply le_n.
    + eapply pubs_trans; eauto.
    + apply pubs_publish.
    + apply pubs_send.
  - apply start_closed; intros; try apply le_n. eapply pubs_trans; eauto.
  - apply arm_closed; intros; try apply le_n. eapply pubs_trans; eauto.
  - unfold pubs_rel, pub_fire. cbn. destruct (nth_error _ i) as [[dl y]|]; auto. destruct (N.leb _ _); auto.
Qed.
Lemma pubs_events : closed_events pubs_rel.
Proof. split; intros; apply le_n. Qed.
Lemma step_published K e s : (pb_published (f_pub s) <= pb_published (f_pub (st (fp_step K e s))))%nat.
Proof.
  apply (tr_step K (fun _ => True) pubs_rel (pubs_closed K _)); auto; try apply pubs_events; try (intros; apply le_n).
  apply Forall_forall. auto.
Qed.

(** ** What a node takes from content, however the handler ends *)
Lemma take_from names : forall s, Forall (from_names names) (ops_of (outs (take_updates names s))).
Proof.
  induction names as [|c names IH]; intros s; cbn [take_updates]; [constructor|].
  rewrite mbind_lift. destruct (name_get_minus c 1) as [x|e|u|] eqn:Ex; try constructor.
  rewrite mbind_lift. destruct (to_number x) as [v|e|u|] eqn:Ev; try constructor. cbv zeta. rewrite mbind_get.
  assert (c = name_prefix_back c 1 ++ [x]) as Hc.
  { destruct c as [|y c _] using rev_ind; [discriminate|].
    rewrite name_get_minus_last in Ex. injection Ex as ->. rewrite name_prefix_back_snoc. reflexivity. }
  assert (forall s1, Forall (from_names (c :: names)) (ops_of (outs (take_updates names s1)))) as Tail.
  { intros s1. eapply Forall_impl; [|apply IH]. intros a. apply from_names_mono. intros y Hy. right. exact Hy. }
  destruct (match get_seq _ _ with None => true | Some cur => cur <? v end); [|apply Tail].
  unfold mbind. destruct (prefix_seq _ s) as [[s1 o1] r1] eqn:E1.
  assert (Forall (from_names (c :: names)) (ops_of o1)) as F1.
  { apply prefix_seq_inv in E1 as [(w & _ & _ & -> & _)|(_ & -> & _ & _)]; repeat constructor. }
  destruct r1 as [cur|e|u|]; try exact F1.
  destruct (fp_op _ s1) as [[s2 o2] r2] eqn:E2.
  assert (Forall (from_names (c :: names)) (ops_of o2)) as F2.
  { apply fp_op_inv in E2 as [(k & _ & Ek & _ & ->)|(_ & -> & Nr)]; [|constructor].
    constructor; [|constructor]. split; [eapply to_number_lt; eauto|]. exists x. rewrite <- Hc. split; [left|]; auto. }
  specialize (Tail s2). unfold outs in *.
  destruct r2 as [[]|e|u|]; cbn [fst snd]; [|rewrite ops_of_app; apply Forall_app; auto..].
  destruct (take_updates names s2) as [[s3 o3] [l3|e|u|]]; cbn [fst snd mret] in *;
    rewrite ?app_nil_r, !ops_of_app; repeat (apply Forall_app; split; auto).
Qed.
Lemma take_reported names : forall s s' o l, take_updates names s = (s', o, Ok l) ->
  forall m, In m l -> In (CUpdate (mi_prefix m) (mi_high m)) (ops_of o).
Proof.
  induction names as [|c names IH]; intros s s' o l; cbn [take_updates].
  - intros [= <- <- <-] m [].
  - rewrite mbind_lift. destruct (name_get_minus c 1) as [x|e|u|] eqn:Ex; try discriminate.
    rewrite mbind_lift. destruct (to_number x) as [v|e|u|] eqn:Ev; try discriminate. cbv zeta. rewrite mbind_get.
    destruct (match get_seq _ _ with None => true | Some cur => cur <? v end); [|apply IH].
    unfold mbind. destruct (prefix_seq _ s) as [[s1 o1] [cur|e|u|]] eqn:E1; try discriminate.
    destruct (fp_op _ s1) as [[s2 o2] [[]|e|u|]] eqn:E2; try discriminate.
    destruct (take_updates names s2) as [[s3 o3] [l3|e|u|]] eqn:T; try discriminate.
    intros [= <- <- <-]. intros m [<-|Hm]; rewrite ?app_nil_r, !ops_of_app; apply in_or_app; right; apply in_or_app.
    + left. apply fp_op_inv in E2 as [(k & _ & Ek & _ & ->)|(_ & _ & Nr)]; [|congruence]. left. reflexivity.
    + right. eapply IH; eauto.
Qed.
Lemma no_update_after K script s : forall p v,
  ~ In (CUpdate p v) (ops_of (outs ((api_calls K script ;; mlet j <- draw K;
        mmod (fun s => fset_wait false (fset_sched (Some (f_now s + j, KSend)) s)) ;; process_waiting K) s))).
Proof.
  intros p v H.
  pose proof (tr_after K (script_op script) (sop_rel (script_op script)) (sop_closed K _)) as T.
  assert (sop_rel (script_op script) s (outs ((api_calls K script ;; mlet j <- draw K;
        mmod (fun s => fset_wait false (fset_sched (Some (f_now s + j, KSend)) s)) ;; process_waiting K) s)) 
    (st ((api_calls K script ;; mlet j <- draw K;
        mmod (fun s => fset_wait false (fset_sched (Some (f_now s + j, KSend)) s)) ;; process_waiting K) s))) as X.
  { apply T; [intros q; right; eauto|]. apply Forall_forall. intros a Ha. left. apply in_map; auto. }
  unfold sop_rel in X. rewrite Forall_forall in X. apply X in H as [H|(q & H)]; [|discriminate].
  apply in_map_iff in H as (a & E & _). destruct a; discriminate.
Qed.
(** the numbers a node takes over are those of the names in the content *)
Lemma step_updates K e s p v : In (CUpdate p v) (ops_of (outs (fp_step K e s))) ->
  exists i buf script n names x, e = FeContent i buf script /\ fetch_of i (f_live s) = Some n /\
    content_names K buf names /\ In (p ++ [x]) names /\ to_number x = Ok v.
Proof.
  intros H.
  assert ((exists i buf script, e = FeContent i buf script) \/ forall i buf script, e <> FeContent i buf script) as [(i & buf & script & ->)|No].
  { destruct e; eauto; right; discriminate. }
  2:{ destruct (step_other_inv K e s No) as [_ F]. rewrite Forall_forall in F. apply F in H as [H|(q & H)]; [|discriminate].
      exfalso. destruct e as [a|n l|i buf script|i face|i timeout|dt|t| | |key|i]; cbn [ev_ops] in H; try contradiction.
      - destruct H as [H|[]]. destruct a; discriminate.
      - eapply No; reflexivity. }
  destruct (step_content_cases K i buf script s) as [E|(n & F & E)]; rewrite E in H; [contradiction|].
  unfold on_sync_data, delete_pending in H. rewrite mbind_mod in H.
  destruct (content_cases (fc_codec K) (fc_cscheme K) buf) as [[names Ec]|[er Ec]]; rewrite Ec in H; [|contradiction].
  exists i, buf, script, n, names.
  assert (exists x, In (p ++ [x]) names /\ to_number x = Ok v) as (x & Hx & Tx); [|exists x; auto].
  set (s0 := fset_pending _ _) in H. pose proof (take_from names s0) as T.
  assert (forall l, In (CUpdate p v) l -> Forall (from_names names) l -> exists x, In (p ++ [x]) names /\ to_number x = Ok v) as Done.
  { intros l Hl Fl. rewrite Forall_forall in Fl. apply Fl in Hl as (_ & x & A & B). eauto. }
  unfold mbind at 1 in H. destruct (take_updates names s0) as [[s1 o1] r1] eqn:Et. unfold outs in T. cbn [fst snd] in T.
  destruct r1 as [l|er|u|]; try (eapply Done; [exact H|exact T]).
  destruct l as [|m l].
  - eapply Done; [|exact T]. rewrite mbind_mod in H. unfold draw in H. rewrite mbind_assoc, mbind_get, mbind_assoc, mbind_mod, mbind_ret in H.
    unfold mmod, outs in H. cbn [fst snd] in H. rewrite app_nil_r in H. exact H.
  - rewrite mbind_emit in H. pose proof (no_update_after K script s1 p v) as No. unfold outs, st in *.
    set (z := (api_calls K script ;; _) s1) in *. destruct z as [[s2 o2] r2] eqn:Z. cbn [fst snd] in *.
    rewrite ops_of_app in H. cbn [ops_of app] in H. apply in_app_or in H as [H|H]; [eapply Done; [exact H|exact T]|contradiction].
Qed.
(** what is reported to the application was taken over *)
Lemma step_reported K e s l m : pfx_ok (k_prefixes (f_core s)) -> In (FoUpdate l) (outs (fp_step K e s)) -> In m l ->
  In (CUpdate (mi_prefix m) (mi_high m)) (ops_of (outs (fp_step K e s))).
Proof.
  intros Hp H Hm.
  assert ((exists i buf script, e = FeContent i buf script) \/ forall i buf script, e <> FeContent i buf script) as [(i & buf & script & ->)|No].
  { destruct e; eauto; right; discriminate. }
  2:{ destruct (step_other_inv K e s No) as [F _]. unfold no_report in F. rewrite Forall_forall in F. exfalso. eapply F; eauto. }
  destruct (step_content_cases K i buf script s) as [E|(n & F & E)]; rewrite E in *; [contradiction|].
  unfold on_sync_data, delete_pending in *. rewrite mbind_mod in *.
  destruct (content_cases (fc_codec K) (fc_cscheme K) buf) as [[names Ec]|[er Ec]]; rewrite Ec in *; [|contradiction].
  set (s0 := fset_pending _ _) in *. pose proof (take_reported names s0) as T. pose proof (take_inv names s0) as V.
  unfold mbind at 1 in H. unfold mbind at 1. destruct (take_updates names s0) as [[s1 o1] r1] eqn:Et.
  destruct (V s1 o1 r1 Hp eq_refl) as (_ & O1 & _).
  assert (~ In (FoUpdate l) o1) as No1.
  { intros X. unfold only_ops in O1. rewrite Forall_forall in O1. apply O1 in X as (c & X). discriminate. }
  destruct r1 as [k|er|u|]; try contradiction. specialize (T s1 o1 k eq_refl).
  destruct k as [|m0 k].
  - rewrite mbind_mod in H. unfold draw in H. rewrite mbind_assoc, mbind_get, mbind_assoc, mbind_mod, mbind_ret in H.
    unfold mmod, outs in H. cbn [fst snd] in H. rewrite app_nil_r in H. contradiction.
  - rewrite mbind_emit in *.
    assert (no_report (outs ((api_calls K script ;; mlet j <- draw K;
        mmod (fun s => fset_wait false (fset_sched (Some (f_now s + j, KSend)) s)) ;; process_waiting K) s1))) as Na.
    { apply (tr_after K (fun _ => True) nr_rel (nr_closed K _)); [intros; exact I|apply Forall_forall; intros; exact I]. }
    unfold outs in *. set (z := (api_calls K script ;; _) s1) in *. destruct z as [[s2 o2] r2] eqn:Z. cbn [fst snd] in *.
    rewrite ops_of_app. apply in_or_app. left. apply in_app_or in H as [H|[H|H]]; [contradiction| |unfold no_report in Na; rewrite Forall_forall in Na; exfalso; eapply Na; eauto].
    injection H as <-. auto.
Qed.

(** ** The group *)
Section Group.
Variable K : nat -> fcfg.
Variable m : nat.
Hypothesis same : forall i j, (i < m)%nat -> (j < m)%nat -> same_group (K i) (K j).

(** reassembly gives back what one node published once *)
Lemma gather (P : nat -> list pubn) (D : data -> Prop) i0 n buf :
  (i0 < m)%nat -> length n = S (S (length (fc_sync (K i0)))) ->
  (forall d, D d -> exists j, (j < m)%nat /\ (packet (K j) (P j) d \/ nack_packet (K j) d)) ->
  (forall j x, (j < m)%nat -> In x (P j) -> N.of_nat (length (pn_buf x)) < two64) ->
  (forall j x, (j < m)%nat -> In x (P j) -> nseg (pn_buf x) = 1%nat) \/
  ((forall i a, (i < m)%nat -> (a < length (P i))%nat -> en_version (fc_env (K i)) a < two64) /\
   (forall i j a b, (i < m)%nat -> (j < m)%nat -> (a < length (P i))%nat -> (b < length (P j))%nat ->
     en_version (fc_env (K i)) a = en_version (fc_env (K j)) b -> i = j /\ a = b)) ->
  assembled D n buf -> exists j x, (j < m)%nat /\ In x (P j) /\ buf = pn_buf x.
Proof.
  intros Hi Ln HD Hb Un (base & segs & d & c & last & Pre & Ind & Fi & Fl & Len & Sg & ->).
  apply is_prefix_iff in Pre as (tail & Eb).
  (* a packet among the segments is a segment of some publication *)
  assert (forall i y, nth_error segs i = Some y -> exists j, (j < m)%nat /\ packet (K j) (P j) y) as Pk.
  { intros i y Hy. destruct (Sg i y Hy) as [Dy Ny]. destruct (HD y Dy) as (j & Hj & [Hp|(cc & Hn)]); [eauto|].
    exfalso. rewrite Ny in Hn. apply (f_equal (@length _)) in Hn. unfold append_segment in Hn.
    rewrite !app_length, Eb, app_length, Ln in Hn. destruct (same i0 j Hi Hj) as (Es & _). rewrite Es in Hn. cbn [length] in Hn. lia. }
  destruct (In_nth_error _ _ Ind) as (i1 & Hi1). destruct (Pk i1 d Hi1) as (j & Hj & k & x & s & Hk & Hs & ->).
  destruct (Sg i1 _ Hi1) as [_ Nm].
  assert (In x (P j)) as Hx by (eapply nth_error_In; eauto).
  exists j, x. split; auto. split; auto.
  assert (N.of_nat (nseg (pn_buf x)) <= two64) as Hn.
  { pose proof (Hb j x Hj Hx) as Hlen. pose proof (nseg_bounds (pn_buf x)) as (_ & _ & Hz). pose proof SEG_SIZE_pos.
    destruct (pn_buf x) as [|b bs]; [discriminate|].
    assert (nseg (b :: bs) <= length (b :: bs))%nat; [|lia].
    assert (b :: bs <> []) as Hne by discriminate. specialize (Hz Hne). nia. }
  pose proof (nseg_bounds (pn_buf x)) as (B0 & _ & _).
  cbn [d_final seg_data] in Fi. injection Fi as <-.
  unfold to_segment in Fl. rewrite number_is_segment in Fl. injection Fl as Fl. cbn [cval number_comp] in Fl.
  rewrite nni_dec in Fl by lia.
  assert (length segs = nseg (pn_buf x)) as Ls by lia.
  assert (i1 < nseg (pn_buf x))%nat as Hl1 by (rewrite <- Ls; apply nth_error_Some; congruence).
  cbn [d_name seg_data] in Nm. apply append_segment_inj in Nm as [Nb Ni]; [|lia|lia].
  rewrite <- (segment_content (fc_env (K j)) (pn_signed x) (append_version (pn_name x) (en_version (fc_env (K j)) k)) (pn_buf x) (pn_fresh x)) at 1.
  do 2 f_equal. apply nth_error_ext; [rewrite segment_length; auto|].
  intros i y Hy. assert (i < nseg (pn_buf x))%nat as Hlt by (rewrite <- Ls; apply nth_error_Some; congruence).
  rewrite segment_nth by auto. destruct Un as [One|[Small Un]].
  - specialize (One j x Hj Hx). assert (i = s) as -> by lia. assert (i1 = s) as -> by lia. congruence.
  - destruct (Pk i y Hy) as (j' & Hj' & k' & x' & s' & Hk' & Hs' & ->). destruct (Sg i _ Hy) as [_ Ny].
    assert (In x' (P j')) as Hx' by (eapply nth_error_In; eauto).
    assert (N.of_nat (nseg (pn_buf x')) <= two64) as Hn'.
    { pose proof (Hb j' x' Hj' Hx') as Hlen. pose proof (nseg_bounds (pn_buf x')) as (_ & _ & Hz). pose proof SEG_SIZE_pos.
      destruct (pn_buf x') as [|b bs]; [discriminate|].
      assert (nseg (b :: bs) <= length (b :: bs))%nat; [|lia].
      assert (b :: bs <> []) as Hne by discriminate. specialize (Hz Hne). nia. }
    cbn [d_name seg_data] in Ny. apply append_segment_inj in Ny as [Nb' Ni']; [|lia|lia].
    rewrite <- Nb in Nb'. unfold append_version in Nb'. apply app_inj_tail in Nb' as [_ Nv].
    assert (k < length (P j))%nat as Lk by (apply nth_error_Some; congruence).
    assert (k' < length (P j'))%nat as Lk' by (apply nth_error_Some; congruence).
    apply number_comp_inj in Nv as [_ Nv]; auto. destruct (Un _ _ _ _ Hj' Hj Lk' Lk Nv) as [-> ->].
    assert (x' = x) as -> by congruence. assert (s' = i) as -> by lia. reflexivity.
Qed.
End Group.

Section Run.
Variable K : nat -> fcfg.
Variable m : nat.
Hypothesis ok : group_ok K m.
Definition origin (g : nat -> seen_node) (p : name) (v : N) : Prop :=
  v = 0 \/ exists j, (j < m)%nat /\ announced (fc_n (K j)) (ops_of (sn_out (g j))) p v.
Record node_ok (g : nat -> seen_node) (i : nat) : Prop := mkNodeOk {
  no_inv : inv (K i) (sn_out (g i)) (sn_state (g i));
  no_fetch : fetch_names (K i) (sn_state (g i));
  no_upd : forall p v, In (CUpdate p v) (ops_of (sn_out (g i))) -> origin g p v;
  no_rep : forall l x, In (FoUpdate l) (sn_out (g i)) -> In x l -> In (CUpdate (mi_prefix x) (mi_high x)) (ops_of (sn_out (g i))) }.
Definition extends (g g' : nat -> seen_node) : Prop :=
  forall i, (i < m)%nat -> (exists o, sn_out (g' i) = sn_out (g i) ++ o) /\ (publications (g i) <= publications (g' i))%nat.

Lemma extends_step g g' : group_step K m g g' -> extends g g'.
Proof.
  intros [i e s o r g1 Hi _ _ Es _ E1 E2] j Hj. destruct (Nat.eq_dec j i) as [->|Ne].
  - rewrite E1. split; [exists o; reflexivity|]. pose proof (step_published (K i) e (sn_state (g i))) as M.
    rewrite Es in M. exact M.
  - rewrite E2 by auto. split; auto. exists []. rewrite app_nil_r. reflexivity.
Qed.
Lemma origin_ext g g' p v : extends g g' -> origin g p v -> origin g' p v.
Proof.
  intros X [H|(j & Hj & H)]; [left; auto|]. right. exists j. split; auto. destruct (X j Hj) as [(o & ->) _].
  rewrite ops_of_app. apply announced_app. auto.
Qed.
Lemma sendable_ext g g' i : (i < m)%nat -> extends g g' -> all_sendable (K i) (ops_of (sn_out (g' i))) ->
  all_sendable (K i) (ops_of (sn_out (g i))).
Proof.
  intros Hi X H l Nd Hl. destruct (X i Hi) as [(o & E) _]. apply H; auto. intros nm Hn. rewrite E, ops_of_app.
  apply carried_app. auto.
Qed.
Lemma unmixed_ext g g' : extends g g' -> unmixed K m g' -> unmixed K m g.
Proof.
  intros X [[U1 U2]|U].
  { left. split.
    - intros i a Hi Ha. apply U1; auto. destruct (X i Hi) as [_ L]. lia.
    - intros i j a b Hi Hj Ha Hb. apply U2; auto; [destruct (X i Hi) as [_ L]|destruct (X j Hj) as [_ L]]; lia. }
  right. intros i Hi l Nd Hl. destruct (X i Hi) as [(o & E) _]. apply (U i Hi); auto.
  intros nm Hn. rewrite E, ops_of_app. apply carried_app. auto.
Qed.
Lemma finite_choice {A} (Q : nat -> A -> Prop) (d : A) : (forall i, (i < m)%nat -> exists x, Q i x) ->
  exists f, forall i, (i < m)%nat -> Q i (f i).
Proof.
  clear ok. induction m as [|k IH]; intros H; [exists (fun _ => d); intros; lia|].
  destruct IH as (f & Hf); [intros i Hi; apply H; lia|]. destruct (H k) as (x & Hx); [lia|].
  exists (fun i => if Nat.eqb i k then x else f i). intros i Hi.
  destruct (Nat.eqb_spec i k) as [->|Ne]; auto. apply Hf. lia.
Qed.
Lemma carried_origin g j nm : (j < m)%nat -> node_ok g j -> carried (fc_n (K j)) (ops_of (sn_out (g j))) nm ->
  exists p v, nm = append_number p v /\ v < two64 /\ origin g p v.
Proof.
  intros Hj [[P Iv] _ Up _] (p & v & -> & H). exists p, v. split; auto. destruct Iv as [W _ _ _ _ _ _]. destruct H as [H|H].
  - split; [eapply had_lt; eauto|]. destruct (had_origin _ _ _ _ W H) as [Z|[A|A]]; [left; auto|right; eauto|auto].
  - split; [eapply announced_lt; eauto|]. right. eauto.
Qed.
Lemma group_step_ok g g' : (forall i, (i < m)%nat -> node_ok g i) -> group_step K m g g' ->
  (forall i, (i < m)%nat -> all_sendable (K i) (ops_of (sn_out (g i)))) -> unmixed K m g ->
  forall i, (i < m)%nat -> node_ok g' i.
Proof.
  intros G St Sd Un. pose proof (extends_step _ _ St) as X.
  destruct St as [i e s o r g1 Hi We De Es Hr E1 E2]. rename g1 into g'.
  intros j Hj. destruct (Nat.eq_dec j i) as [->|Ne].
  2:{ destruct (G j Hj) as [A B C D]. split; rewrite ?E2 by auto; auto. intros p v H. eapply origin_ext; eauto. }
  destruct (G i Hi) as [A B C D].
  pose proof (step_inv (K i) _ _ e We A) as A'. pose proof (step_fetch (K i) e _ B) as B'.
  pose proof (fun p v => step_updates (K i) e (sn_state (g i)) p v) as U.
  assert (pfx_ok (k_prefixes (f_core (sn_state (g i))))) as Pf.
  { destruct A as [P [W Co _ _ _ _ _]]. eapply crun_pfx; [apply core_new_pfx|exact W|exact Co]. }
  pose proof (fun l x => step_reported (K i) e (sn_state (g i)) l x Pf) as Rp.
  rewrite Es in A', B', U, Rp. unfold outs, st in A', B', U, Rp. cbn [fst snd] in A', B', U, Rp.
  split; rewrite E1; cbn [sn_state sn_out]; auto.
  - intros p v H. rewrite ops_of_app in H. apply in_app_or in H as [H|H]; [eapply origin_ext; eauto|].
    destruct (U p v H) as (q & buf & script & n & names & x & -> & Ff & Cn & Hx & Tx). clear U.
    cbn [delivers] in De. specialize (De n Ff).
    destruct (finite_choice (fun j P => ninv (K j) P (sn_out (g j)) (sn_state (g j))) []) as (P & HP).
    { intros j0 Hj0. apply (G j0 Hj0). }
    destruct (gather K m (go_same _ _ ok) P (soup m g) i n buf Hi) as (j0 & y & Hj0 & Hy & ->); auto.
    + eapply B. apply fetch_of_In. exact Ff.
    + intros d (j1 & Hj1 & Hd). exists j1. split; auto. apply (ni_data _ _ _ _ (HP j1 Hj1)). apply data_of_In. auto.
    + intros j1 y Hj1 Hy. destruct (ni_pub _ _ _ _ (HP j1 Hj1) y Hy) as (Co & Nd & Ca).
      destruct (Sd j1 Hj1 _ Nd Ca) as [_ L]. apply L. auto.
    + destruct Un as [[Un1 Un2]|Un].
      { right. split.
        - intros j1 a Hj1. rewrite (ni_len _ _ _ _ (HP j1 Hj1)). apply Un1; auto.
        - intros j1 j2 a b Hj1 Hj2. rewrite (ni_len _ _ _ _ (HP j1 Hj1)), (ni_len _ _ _ _ (HP j2 Hj2)). apply Un2; auto. }
      left. intros j1 y Hj1 Hy.
      destruct (ni_pub _ _ _ _ (HP j1 Hj1) y Hy) as (Co & Nd & Ca). pose proof (Un j1 Hj1 _ Nd Ca _ Co) as L.
      pose proof (nseg_bounds (pn_buf y)) as (B0 & _ & Hz). pose proof SEG_SIZE_pos.
      destruct (pn_buf y) as [|b bs]; [reflexivity|]. assert (b :: bs <> []) as Hne by discriminate. specialize (Hz Hne).
      assert (nseg (b :: bs) - 1 = 0)%nat; [|lia]. nia.
    + destruct (ni_pub _ _ _ _ (HP j0 Hj0) y Hy) as (Co & Nd & Ca). destruct (Sd j0 Hj0 _ Nd Ca) as [Wf _].
      destruct (go_same _ _ ok j0 i Hj0 Hi) as (_ & _ & _ & G4 & G5).
      unfold content_names in Cn. rewrite <- G4, <- G5, (decompress_compress _ _ _ _ (go_lossless _ _ ok j0 Hj0) Co) in Cn.
      assert (state_of_buffer (encode_names (pn_names y)) = Ok (pn_names y)) as Rt by (apply state_roundtrip; auto).
      cbn [obind] in Cn. rewrite Rt in Cn. injection Cn as <-.
      destruct (carried_origin g j0 _ Hj0 (G j0 Hj0) (Ca _ Hx)) as (p' & v' & Eq & Lv & Or).
      unfold append_number in Eq. apply app_inj_tail in Eq as [-> ->]. rewrite to_number_number in Tx by auto. injection Tx as ->.
      eapply origin_ext; eauto.
  - intros l x Hl Hx. rewrite ops_of_app. apply in_or_app. apply in_app_or in Hl as [Hl|Hl]; eauto.
Qed.
Lemma extends_refl g : extends g g.
Proof. intros i _. split; auto. exists []. rewrite app_nil_r. reflexivity. Qed.
Lemma extends_trans a b c : extends a b -> extends b c -> extends a c.
Proof.
  intros X Y i Hi. destruct (X i Hi) as [(o & E) L], (Y i Hi) as [(o' & E') L']. split; [|lia].
  exists (o ++ o'). rewrite E', E, app_assoc. auto.
Qed.
Lemma extends_run g g' : group_run K m g g' -> extends g g'.
Proof. induction 1; [apply extends_refl|]. eapply extends_trans; eauto using extends_step. Qed.
Lemma started_ok g : started K m g -> forall i, (i < m)%nat -> node_ok g i.
Proof.
  intros S i Hi. destruct (S i Hi) as (sys & R). split; [eapply init_inv; eauto|..];
    destruct R as [_ R]; apply start_inv in R as (s0 & o0 & o1 & E & R & Eo); injection R as Es <-;
    rewrite app_nil_r in Eo; rewrite init_eq in E; destruct (sync_name (K i) _) as [n|x|u|] eqn:Sn; try discriminate;
    injection E as <- <-; rewrite <- ?Es, ?Eo.
  - intros j x [Hx|[]]. injection Hx as _ <-. apply sync_name_asks in Sn as (c & _ & ->). rewrite app_length. simpl. lia.
  - intros p v [].
  - intros l x [Hl|[]]. discriminate.
Qed.
Theorem group_run_ok g g' : started K m g -> group_run K m g g' ->
  (forall i, (i < m)%nat -> all_sendable (K i) (ops_of (sn_out (g' i)))) -> unmixed K m g' ->
  forall i, (i < m)%nat -> node_ok g' i.
Proof.
  intros S. induction 1 as [g|g g1 g2 R IH St]; intros Sd Un; [apply started_ok; auto|].
  assert (unmixed K m g1) as Un1 by (apply (unmixed_ext g1 g2); auto; apply extends_step; auto).
  assert (forall i, (i < m)%nat -> all_sendable (K i) (ops_of (sn_out (g1 i)))) as Sd1.
  { intros i Hi. apply (sendable_ext g1 g2); auto. apply extends_step; auto. }
  eapply group_step_ok; eauto.
Qed.
(** at each node, the operations between two moments lead from one state of its data to the other *)
Lemma group_run_core g g' i : (i < m)%nat -> group_run K m g g' ->
  exists o, sn_out (g' i) = sn_out (g i) ++ o /\ crun (f_core (sn_state (g i))) (ops_of o) = Ok (f_core (sn_state (g' i))) /\
    Forall cop_wf (ops_of o).
Proof.
  intros Hi. induction 1 as [g|g g1 g2 R IH St].
  - exists []. rewrite app_nil_r. split; auto. split; [reflexivity|constructor].
  - destruct IH as (o & E & C & W). destruct St as [j e s o1 r g' Hj We De Es Hr E1 E2].
    destruct (Nat.eq_dec i j) as [->|Ne].
    + exists (o ++ o1). pose proof (step_core (K j) (sn_state (g1 j)) e) as Sc.
      pose proof (step_ops (K j) (sn_state (g1 j)) e We) as So.
      rewrite Es in Sc, So. unfold outs, st in *. cbn [fst snd] in *. rewrite E1. cbn [sn_state sn_out].
      rewrite E, app_assoc, ops_of_app, crun_app, C. split; auto. split; [exact Sc|]. apply Forall_app. auto.
    + exists o. rewrite E2 by auto. auto.
Qed.
End Run.
