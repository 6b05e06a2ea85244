(** The decoder accepts exactly the grammar of SpecTlv; histories of State operations. *)
From Coq Require Import List NArith ZArith Bool Lia Arith.
From Coq.Strings Require Import Byte.
From Verif Require Import Base BaseFacts Tlv TlvFacts State SpecTlv.
Import ListNotations.
Local Open Scope N_scope.

Lemma b2n_fd : b2n xfd = 253. Proof. reflexivity. Qed.
Lemma b2n_fe : b2n xfe = 254. Proof. reflexivity. Qed.
Lemma b2n_ff : b2n xff = 255. Proof. reflexivity. Qed.

Lemma take_be_ok k bs n r :
  take_be k bs = Some (n, r) -> exists e, bs = e ++ r /\ length e = k /\ n = be_dec e.
Proof.
  unfold take_be. destruct (Nat.leb_spec k (length bs)); [|discriminate].
  intros H'. injection H' as <- <-. exists (firstn k bs). rewrite firstn_skipn, firstn_length_le; auto.
Qed.

Lemma read_var_iff bs n r : read_var bs = Some (n, r) <-> exists e, VarNum n e /\ bs = e ++ r.
Proof.
  split.
  - unfold read_var. destruct bs as [|b bs]; [discriminate|].
    destruct (N.ltb_spec (b2n b) 253).
    + intros H'. injection H' as <- <-. exists [b]. split; [constructor; auto|reflexivity].
    + destruct (N.eqb_spec (b2n b) 253) as [E|]; [|destruct (N.eqb_spec (b2n b) 254) as [E|]]; intros H'.
      * apply take_be_ok in H' as (e & -> & L & ->). rewrite <- b2n_fd in E. apply b2n_inj in E as ->.
        exists (xfd :: e). split; [constructor; auto|reflexivity].
      * apply take_be_ok in H' as (e & -> & L & ->). rewrite <- b2n_fe in E. apply b2n_inj in E as ->.
        exists (xfe :: e). split; [constructor; auto|reflexivity].
      * apply take_be_ok in H' as (e & -> & L & ->).
        assert (b2n b = 255) as E by (pose proof (b2n_lt b); lia).
        rewrite <- b2n_ff in E. apply b2n_inj in E as ->.
        exists (xff :: e). split; [constructor; auto|reflexivity].
  - intros (e & V & ->). destruct V as [b H|e L|e L|e L]; cbn [app read_var].
    + destruct (N.ltb_spec (b2n b) 253); [reflexivity|lia].
    + rewrite b2n_fd. cbn. apply take_be_app. auto.
    + rewrite b2n_fe. cbn. apply take_be_app. auto.
    + rewrite b2n_ff. cbn. apply take_be_app. auto.
Qed.

Lemma read_elem_iff bs t v r : read_elem bs = Some (t, v, r) <-> exists e, Elem t v e /\ bs = e ++ r.
Proof.
  split.
  - unfold read_elem. destruct (read_var bs) as [[t' r1]|] eqn:E1; [|discriminate].
    destruct (N.eqb_spec t' 0); [discriminate|]. destruct (N.ltb_spec 0xffffffff t'); [discriminate|].
    cbn [orb]. destruct (read_var r1) as [[l r2]|] eqn:E2; [|discriminate].
    destruct (N.ltb_spec (N.of_nat (length r2)) l); [discriminate|].
    intros H'. injection H' as <- <- <-.
    apply read_var_iff in E1 as (bt & V1 & ->). apply read_var_iff in E2 as (bl & V2 & ->).
    exists (bt ++ bl ++ firstn (N.to_nat l) r2). split.
    + constructor; auto; [lia|unfold two32; lia|].
      rewrite firstn_length_le by lia. rewrite N2Nat.id. exact V2.
    + rewrite <- !app_assoc, firstn_skipn. reflexivity.
  - intros (e & E & ->). destruct E as [t v bt bl H1 H2 V1 V2]. rewrite <- !app_assoc.
    unfold read_elem. rewrite (proj2 (read_var_iff _ t (bl ++ v ++ r))) by eauto.
    destruct (N.eqb_spec t 0); [lia|].
    destruct (N.ltb_spec 0xffffffff t); [unfold two32 in *; lia|]. cbn [orb].
    rewrite (proj2 (read_var_iff _ (N.of_nat (length v)) (v ++ r))) by eauto.
    rewrite app_length. destruct (N.ltb_spec (N.of_nat (length v + length r)) (N.of_nat (length v))); [lia|].
    rewrite Nat2N.id, firstn_app, Nat.sub_diag, firstn_all, firstn_O, app_nil_r.
    rewrite skipn_app, Nat.sub_diag, skipn_all, skipn_O. reflexivity.
Qed.

Lemma parse_elems_iff bs l : parse_elems bs = Some l <-> Elems l bs.
Proof.
  split.
  - remember (length bs) as n eqn:E. revert bs l E.
    induction n as [n IH] using (well_founded_induction Nat.lt_wf_0). intros bs l E H.
    destruct bs as [|b bs]; [injection H as <-; constructor|].
    destruct (read_elem (b :: bs)) as [[[t v] r]|] eqn:Er.
    + rewrite (parse_elems_step _ _ _ _ Er) in H.
      pose proof (read_elem_length _ _ _ _ Er).
      destruct (parse_elems r) as [l'|] eqn:El; [|discriminate]. injection H as <-.
      apply read_elem_iff in Er as (e & He & Eb). rewrite Eb. constructor; auto.
      apply (IH (length r)); auto. lia.
    + unfold parse_elems in H. cbn [length read_elems] in H. rewrite Er in H. discriminate.
  - induction 1 as [|t v e l bs He Hl IH]; [reflexivity|].
    rewrite (parse_elems_step _ t v bs) by (apply read_elem_iff; eauto). rewrite IH. reflexivity.
Qed.

Lemma read_block_iff bs t v : read_block bs = Some (t, v) <-> Elem t v bs.
Proof.
  unfold read_block. split.
  - destruct (read_elem bs) as [[[t' v'] r]|] eqn:E; [|discriminate].
    destruct r; [|discriminate]. intros H. injection H as <- <-.
    apply read_elem_iff in E as (e & He & ->). rewrite app_nil_r. exact He.
  - intros H. rewrite (proj2 (read_elem_iff bs t v [])); auto.
    exists bs. rewrite app_nil_r. auto.
Qed.

Lemma name_of_value_iff v n :
  name_of_value v = Some n <-> Elems (map (fun c => (ctype c, cval c)) n) v.
Proof.
  unfold name_of_value. split.
  - destruct (parse_elems v) as [l|] eqn:E; [|discriminate]. intros H. injection H as <-.
    apply parse_elems_iff. rewrite E, map_map. f_equal. rewrite <- (map_id l) at 1.
    apply map_ext. intros []; reflexivity.
  - intros H. apply parse_elems_iff in H. rewrite H, map_comp_id. reflexivity.
Qed.

Lemma NameElems_iff ns v :
  NameElems ns v <->
  exists l, Elems l v /\
    Forall2 (fun e n => fst e = TYPE_NAME /\ name_of_value (snd e) = Some n) l ns.
Proof.
  split.
  - induction 1 as [|n e l bs (v & He & Hv) _ (l' & IH1 & IH2)].
    + exists []. split; constructor.
    + exists ((TYPE_NAME, v) :: l'). split; [constructor; auto|].
      constructor; auto. split; auto. apply name_of_value_iff. exact Hv.
  - intros (l & H & F). revert ns F. induction H as [|t v e l bs He _ IH]; intros ns F.
    + inversion F. constructor.
    + inversion F as [|x n l1 ns' [E1 E2] F']; subst. simpl in E1, E2. subst t.
      constructor; auto. exists v. split; auto. apply name_of_value_iff. exact E2.
Qed.

Theorem state_of_buffer_iff bs ns : state_of_buffer bs = Ok ns <-> SyncContent ns bs.
Proof.
  unfold state_of_buffer, SyncContent. split.
  - destruct (read_block bs) as [[t v]|] eqn:E; [|discriminate]. unfold wire_decode.
    destruct (N.eqb_spec t TYPE_PSYNC_CONTENT) as [->|]; [|discriminate].
    destruct (parse_elems v) as [l|] eqn:Ep; [|discriminate].
    destruct (decode_elems l) as [ns' o] eqn:Ed. destruct o as [[]| | |]; try discriminate.
    cbn. intros [= ->]. exists v. split; [apply read_block_iff; exact E|].
    apply NameElems_iff. exists l. split; [apply parse_elems_iff; exact Ep|apply decode_elems_ok; exact Ed].
  - intros (v & He & Hn). apply read_block_iff in He. change 128 with TYPE_PSYNC_CONTENT in He. rewrite He.
    unfold wire_decode. rewrite N.eqb_refl. apply NameElems_iff in Hn as (l & Hl & F).
    apply parse_elems_iff in Hl. rewrite Hl.
    destruct (decode_elems_outcome l) as (ns' & [E|(e & E)]).
    + rewrite E. cbn. f_equal. apply decode_elems_ok in E. clear -E F.
      revert ns F; induction E as [|x y l l' [H1 H2] _ IH]; intros ns F; inversion F; subst; auto.
      destruct H3 as [_ H3]. f_equal; [congruence|auto].
    + exfalso. eapply decode_elems_fail; eauto.
Qed.

Lemma state_of_buffer_outcomes bs :
  (exists ns, state_of_buffer bs = Ok ns) \/ state_of_buffer bs = Throw ExTlv \/
  state_of_buffer bs = Throw ExState.
Proof.
  unfold state_of_buffer. destruct (read_block bs) as [[t v]|]; auto. unfold wire_decode.
  destruct (t =? TYPE_PSYNC_CONTENT); cbn; auto.
  destruct (parse_elems v) as [l|]; cbn; auto.
  assert (forall ns o, decode_elems l = (ns, o) -> o = Ok tt \/ o = Throw ExTlv \/ o = Throw ExState) as H.
  { clear. induction l as [|[t v] l IH]; intros ns o H; cbn in H.
    - injection H as _ <-. auto.
    - destruct (t =? TYPE_NAME); [|injection H as _ <-; auto].
      destruct (name_of_value v); [|injection H as _ <-; auto].
      destruct (decode_elems l) as [ns' o'] eqn:E. injection H as _ <-. eapply IH; eauto. }
  destruct (decode_elems l) as [ns o] eqn:E. specialize (H ns o eq_refl).
  destruct H as [-> |[-> | ->]]; cbn; eauto.
Qed.

(** the encoder produces the grammar *)
Lemma VarNum_write n : n < two64 -> VarNum n (write_var n).
Proof.
  intros H. pose proof (read_write_var n [] H) as E. apply read_var_iff in E as (e & V & E).
  rewrite !app_nil_r in E. subst. exact V.
Qed.
Lemma Elem_tlv t v : wf_elem t v -> Elem t v (tlv t v).
Proof. intros (H1 & H2 & H3). constructor; auto; apply VarNum_write; unfold two32, two64 in *; auto; lia. Qed.

(** ** Histories *)
Inductive sop := SAdd (n : name) | SEncode | SDecode (bs : bytes).

(** one call on a State; decoding takes a Block, built from a buffer (which may throw already) *)
Definition sop_step (s : sstate) (o : sop) : sstate :=
  match o with
  | SAdd n => add_content s n
  | SEncode => snd (wire_encode s)
  | SDecode bs =>
    match read_block bs with
    | None => s
    | Some (t, v) => fst (wire_decode s bs t v)
    end
  end.
Definition sop_run (ops : list sop) : sstate := fold_left sop_step ops state_new.

(** what a reader of the interface expects the content to be *)
Fixpoint added (ops : list sop) : list name :=
  match ops with
  | [] => []
  | SAdd n :: r => n :: added r
  | _ :: r => added r
  end.
Definition no_decode (ops : list sop) : Prop :=
  forall o, In o ops -> match o with SDecode _ => False | _ => True end.

Lemma sop_run_snoc ops o : sop_run (ops ++ [o]) = sop_step (sop_run ops) o.
Proof. unfold sop_run. rewrite fold_left_app. reflexivity. Qed.

Lemma added_app a b : added (a ++ b) = added a ++ added b.
Proof. induction a as [|[n| |bs] a IH]; simpl; congruence. Qed.

Lemma sop_run_content ops :
  no_decode ops ->
  s_content (sop_run ops) = added ops /\
  (s_wire (sop_run ops) = None \/ s_wire (sop_run ops) = Some (encode_names (added ops))).
Proof.
  induction ops as [|o ops IH] using rev_ind; intros H; [split; auto|].
  rewrite sop_run_snoc, added_app.
  destruct IH as [IH1 IH2]; [intros o' Ho'; apply H, in_app_iff; auto|].
  destruct o as [n| |bs].
  - cbn. rewrite IH1. auto.
  - cbn [added sop_step]. rewrite app_nil_r. unfold wire_encode.
    destruct (s_wire (sop_run ops)) eqn:E; cbn; [rewrite E; auto|].
    rewrite IH1. auto.
  - exfalso. apply (H (SDecode bs)). apply in_app_iff. right; left; auto.
Qed.

Lemma sop_run_encode ops :
  no_decode ops -> fst (wire_encode (sop_run ops)) = encode_names (added ops).
Proof.
  intros H. destruct (sop_run_content ops H) as [H1 H2]. unfold wire_encode.
  destruct H2 as [-> | ->]; cbn; congruence.
Qed.

(** with decoding: the cache always decodes to the content unless a decode failed *)
Definition decode_ok (s : sstate) (o : sop) : Prop :=
  match o with
  | SDecode bs => exists t v, read_block bs = Some (t, v) /\ snd (wire_decode s bs t v) = Ok tt
  | _ => True
  end.
Fixpoint decodes_ok (s : sstate) (ops : list sop) : Prop :=
  match ops with
  | [] => True
  | o :: r => decode_ok s o /\ decodes_ok (sop_step s o) r
  end.

Lemma sop_run_cache ops s :
  (forall w, s_wire s = Some w -> wf_names (s_content s) -> state_of_buffer w = Ok (s_content s)) ->
  decodes_ok s ops ->
  let s' := fold_left sop_step ops s in
  wf_names (s_content s') -> state_of_buffer (fst (wire_encode s')) = Ok (s_content s').
Proof.
  revert s; induction ops as [|o ops IH]; intros s Hs Hd; cbn [fold_left].
  - intros Hw. unfold wire_encode. destruct (s_wire s) eqn:E; cbn; auto.
    apply state_roundtrip. exact Hw.
  - destruct Hd as [Ho Hd]. apply IH; auto. clear IH Hd.
    destruct o as [n| |bs]; cbn [sop_step].
    + discriminate.
    + unfold wire_encode. destruct (s_wire s) eqn:E; cbn; auto.
      * rewrite E. auto.
      * intros w [= <-] Hw. apply state_roundtrip. exact Hw.
    + destruct Ho as (t & v & Eb & Ed). rewrite Eb.
      unfold wire_decode in *. destruct (t =? TYPE_PSYNC_CONTENT) eqn:Et; [|discriminate].
      destruct (parse_elems v) as [l|] eqn:Ep; [|discriminate].
      destruct (decode_elems l) as [ns o] eqn:El. cbn in Ed. subst o. cbn.
      intros w [= <-] _. unfold state_of_buffer. rewrite Eb. unfold wire_decode.
      rewrite Et, Ep, El. reflexivity.
Qed.
