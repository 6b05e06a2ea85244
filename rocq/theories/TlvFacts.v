(** Facts about TLV encoding, names, number components. *)
From Coq Require Import List NArith ZArith Bool Lia Arith Sorted.
From Coq.Strings Require Import Byte.
From Verif Require Import Base BaseFacts Tlv State.
Import ListNotations.
Local Open Scope N_scope.
Ltac Zify.zify_post_hook ::= Z.to_euclidean_division_equations.

(** ** Variable-size numbers *)
Lemma take_be_app k bs r : length bs = k -> take_be k (bs ++ r) = Some (be_dec bs, r).
Proof.
  intros <-. unfold take_be. rewrite app_length.
  destruct (Nat.leb_spec (length bs) (length bs + length r)); [|lia].
  rewrite firstn_app, Nat.sub_diag, firstn_all, firstn_O, app_nil_r.
  rewrite skipn_app, Nat.sub_diag, skipn_all, skipn_O. reflexivity.
Qed.

Lemma read_write_var n r : n < two64 -> read_var (write_var n ++ r) = Some (n, r).
Proof.
  unfold two64. intros Hn. unfold write_var.
  destruct (N.ltb_spec n 253).
  - cbn [app read_var]. rewrite b2n_n2b, N.mod_small by lia.
    destruct (N.ltb_spec n 253); [reflexivity|lia].
  - destruct (N.leb_spec n 0xffff).
    + cbn [app read_var]. rewrite b2n_n2b. cbn [N.modulo].
      change (253 mod 256) with 253. cbn [N.ltb N.eqb N.compare Pos.compare Pos.compare_cont Pos.eqb].
      rewrite take_be_app by apply be_enc_length. rewrite be_dec_enc_small; auto.
      change (256 ^ N.of_nat 2) with 65536. lia.
    + destruct (N.leb_spec n 0xffffffff).
      * cbn [app read_var]. rewrite b2n_n2b. change (254 mod 256) with 254.
        change (254 <? 253) with false. change (254 =? 253) with false. change (254 =? 254) with true.
        cbv iota. rewrite take_be_app by apply be_enc_length. rewrite be_dec_enc_small; auto.
        change (256 ^ N.of_nat 4) with 4294967296. lia.
      * cbn [app read_var]. rewrite b2n_n2b. change (255 mod 256) with 255.
        change (255 <? 253) with false. change (255 =? 253) with false. change (255 =? 254) with false.
        cbv iota. rewrite take_be_app by apply be_enc_length. rewrite be_dec_enc_small; auto.
Qed.

Lemma write_var_nonempty n : write_var n <> [].
Proof.
  unfold write_var. repeat (destruct (_ <? _) || destruct (_ <=? _)); discriminate.
Qed.

Lemma write_var_length n : (1 <= length (write_var n))%nat.
Proof. pose proof (write_var_nonempty n). destruct (write_var n); simpl; [congruence|lia]. Qed.

(** ** Elements *)
Definition wf_elem (t : N) (v : bytes) : Prop :=
  0 < t /\ t < two32 /\ N.of_nat (length v) < two64.

Lemma read_elem_tlv t v r : wf_elem t v -> read_elem (tlv t v ++ r) = Some (t, v, r).
Proof.
  intros (H1 & H2 & H3). unfold read_elem, tlv. rewrite <- !app_assoc.
  rewrite read_write_var by (unfold two32, two64 in *; lia).
  destruct (N.eqb_spec t 0); [lia|]. destruct (N.ltb_spec 0xffffffff t); [unfold two32 in *; lia|].
  cbn [orb]. rewrite read_write_var by assumption.
  rewrite app_length. destruct (N.ltb_spec (N.of_nat (length v + length r)) (N.of_nat (length v))); [lia|].
  rewrite Nat2N.id, firstn_app, Nat.sub_diag, firstn_all, firstn_O, app_nil_r.
  rewrite skipn_app, Nat.sub_diag, skipn_all, skipn_O. reflexivity.
Qed.

Lemma take_be_length k bs n r : take_be k bs = Some (n, r) -> (length r <= length bs)%nat.
Proof.
  unfold take_be. destruct (Nat.leb k (length bs)); [|discriminate].
  intros H. injection H as _ <-. rewrite skipn_length. lia.
Qed.

Lemma read_var_length bs n r : read_var bs = Some (n, r) -> (length r < length bs)%nat.
Proof.
  unfold read_var. destruct bs as [|b bs]; [discriminate|]. cbn [length].
  destruct (b2n b <? 253); [intros [= <- <-]; lia|].
  destruct (b2n b =? 253); [|destruct (b2n b =? 254)]; intros H; apply take_be_length in H; lia.
Qed.

Lemma read_elem_length bs t v r : read_elem bs = Some (t, v, r) -> (length r < length bs)%nat.
Proof.
  unfold read_elem. destruct (read_var bs) as [[t' r1]|] eqn:E1; [|discriminate].
  destruct (_ || _); [discriminate|].
  destruct (read_var r1) as [[l r2]|] eqn:E2; [|discriminate].
  destruct (_ <? _); [discriminate|]. intros [= <- <- <-].
  apply read_var_length in E1, E2. rewrite skipn_length. lia.
Qed.

Lemma read_elem_wf bs t v r : read_elem bs = Some (t, v, r) -> 0 < t < two32.
Proof.
  unfold read_elem. destruct (read_var bs) as [[t' r1]|] eqn:E1; [|discriminate].
  destruct (N.eqb_spec t' 0); [discriminate|]. destruct (N.ltb_spec 0xffffffff t'); [discriminate|].
  cbn [orb]. destruct (read_var r1) as [[l r2]|] eqn:E2; [|discriminate].
  destruct (_ <? _); [discriminate|]. intros [= <- <- <-]. unfold two32. lia.
Qed.

(** the fuel of the element reader never runs out *)
Lemma read_elems_fuel f bs :
  (length bs <= f)%nat -> read_elems f bs = parse_elems bs.
Proof.
  unfold parse_elems.
  assert (forall n f f' bs, length bs = n -> (n <= f)%nat -> (n <= f')%nat ->
    read_elems f bs = read_elems f' bs) as H.
  { clear f bs. induction n as [n IH] using (well_founded_induction Nat.lt_wf_0).
    intros f f' bs L Hf Hf'. destruct bs as [|b bs].
    - destruct f, f'; reflexivity.
    - destruct f as [|f]; [simpl in L; lia|]. destruct f' as [|f']; [simpl in L; lia|].
      cbn [read_elems]. destruct (read_elem (b :: bs)) as [[[t v] r]|] eqn:E; auto.
      apply read_elem_length in E. rewrite (IH (length r)) with (f' := f'); auto; lia. }
  intros. eapply H; eauto.
Qed.

Lemma parse_elems_nil : parse_elems [] = Some [].
Proof. reflexivity. Qed.

Lemma parse_elems_step bs t v r :
  read_elem bs = Some (t, v, r) ->
  parse_elems bs = match parse_elems r with Some l => Some ((t, v) :: l) | None => None end.
Proof.
  intros E. pose proof (read_elem_length _ _ _ _ E) as Hl.
  unfold parse_elems at 1. destruct bs as [|b bs]; [simpl in Hl; lia|].
  cbn [length read_elems]. rewrite E, read_elems_fuel; [reflexivity|]. cbn [length] in Hl. lia.
Qed.

Lemma parse_elems_tlv t v r :
  wf_elem t v ->
  parse_elems (tlv t v ++ r) =
  match parse_elems r with Some l => Some ((t, v) :: l) | None => None end.
Proof. intros. apply parse_elems_step, read_elem_tlv. assumption. Qed.

Lemma parse_elems_all l :
  Forall (fun e => wf_elem (fst e) (snd e)) l ->
  parse_elems (flat_map (fun e => tlv (fst e) (snd e)) l) = Some l.
Proof.
  induction 1 as [|[t v] l H _ IH]; [reflexivity|].
  cbn [flat_map fst snd] in *. rewrite parse_elems_tlv by assumption. rewrite IH. reflexivity.
Qed.

Lemma parse_elems_types bs l :
  parse_elems bs = Some l -> Forall (fun e => 0 < fst e < two32) l.
Proof.
  remember (length bs) as n eqn:E. revert bs l E.
  induction n as [n IH] using (well_founded_induction Nat.lt_wf_0). intros bs l E H.
  destruct bs as [|b bs]; [injection H as <-; constructor|].
  destruct (read_elem (b :: bs)) as [[[t v] r]|] eqn:Er.
  - rewrite (parse_elems_step _ _ _ _ Er) in H.
    pose proof (read_elem_length _ _ _ _ Er). pose proof (read_elem_wf _ _ _ _ Er).
    destruct (parse_elems r) as [l'|] eqn:El; [|discriminate]. injection H as <-.
    constructor; auto. eapply (IH (length r)); eauto. lia.
  - unfold parse_elems in H. cbn [length read_elems] in H. rewrite Er in H. discriminate.
Qed.

(** ** Names *)
Definition wf_comp (c : comp) : Prop := wf_elem (ctype c) (cval c).
Definition wf_name (n : name) : Prop :=
  Forall wf_comp n /\ N.of_nat (length (name_value n)) < two64.

Lemma map_comp_id (n : name) :
  map (fun e => mkComp (fst e) (snd e)) (map (fun c => (ctype c, cval c)) n) = n.
Proof. induction n as [|[t v] n IH]; simpl; congruence. Qed.

Lemma name_value_elems (n : name) :
  name_value n = flat_map (fun e => tlv (fst e) (snd e)) (map (fun c => (ctype c, cval c)) n).
Proof. unfold name_value. induction n as [|c n IH]; simpl; [reflexivity|]. rewrite IH. reflexivity. Qed.

Lemma name_of_value_roundtrip n : Forall wf_comp n -> name_of_value (name_value n) = Some n.
Proof.
  intros H. unfold name_of_value. rewrite name_value_elems, parse_elems_all.
  - rewrite map_comp_id. reflexivity.
  - apply Forall_forall. intros e He. apply in_map_iff in He as (c & <- & Hc).
    rewrite Forall_forall in H. apply H; auto.
Qed.

Lemma name_value_inj a b :
  Forall wf_comp a -> Forall wf_comp b -> name_value a = name_value b -> a = b.
Proof.
  intros Ha Hb H. pose proof (name_of_value_roundtrip a Ha) as Ra.
  rewrite H, (name_of_value_roundtrip b Hb) in Ra. congruence.
Qed.

Lemma name_value_app a b : name_value (a ++ b) = name_value a ++ name_value b.
Proof. apply flat_map_app. Qed.

Lemma comp_eqb_eq a b : comp_eqb a b = true <-> a = b.
Proof.
  unfold comp_eqb. rewrite andb_true_iff, N.eqb_eq, bytes_eqb_spec.
  destruct a, b; simpl. split; [intros [-> ->]|intros [= -> ->]]; auto.
Qed.
Lemma name_eqb_eq a b : name_eqb a b = true <-> a = b.
Proof.
  revert b; induction a as [|x a IH]; destruct b as [|y b]; simpl; try (split; congruence).
  rewrite andb_true_iff, comp_eqb_eq, IH. split; [intros [-> ->]|intros [= -> ->]]; auto.
Qed.
Lemma name_eqb_refl a : name_eqb a a = true.
Proof. apply name_eqb_eq. reflexivity. Qed.
Lemma name_eqb_neq a b : name_eqb a b = false <-> a <> b.
Proof. rewrite <- not_true_iff_false, name_eqb_eq. reflexivity. Qed.
Lemma name_eqb_sym a b : name_eqb a b = name_eqb b a.
Proof.
  destruct (name_eqb a b) eqn:E; symmetry.
  - apply name_eqb_eq in E. subst. apply name_eqb_refl.
  - apply name_eqb_neq in E. apply name_eqb_neq. congruence.
Qed.

(** ** Canonical order *)
Lemma bytes_cmp_eq a b : bytes_cmp a b = Eq <-> a = b.
Proof.
  revert b; induction a as [|x a IH]; destruct b as [|y b]; simpl; try (split; congruence).
  destruct (N.compare_spec (b2n x) (b2n y)) as [E|E|E].
  - rewrite IH. apply b2n_inj in E. split; congruence.
  - split; [discriminate|]. intros [= -> ->]. lia.
  - split; [discriminate|]. intros [= -> ->]. lia.
Qed.
Lemma bytes_cmp_antisym a b : bytes_cmp b a = CompOpp (bytes_cmp a b).
Proof.
  revert b; induction a as [|x a IH]; destruct b as [|y b]; simpl; auto.
  rewrite (N.compare_antisym (b2n x) (b2n y)). destruct (b2n x ?= b2n y); simpl; auto.
Qed.
Lemma bytes_cmp_trans a b c : bytes_cmp a b = Lt -> bytes_cmp b c = Lt -> bytes_cmp a c = Lt.
Proof.
  revert b c; induction a as [|x a IH]; destruct b as [|y b]; destruct c as [|z c]; simpl; try congruence.
  intros H1 H2.
  destruct (N.compare_spec (b2n x) (b2n y)); destruct (N.compare_spec (b2n y) (b2n z)); try discriminate;
  destruct (N.compare_spec (b2n x) (b2n z)); try lia; auto. eauto.
Qed.

Lemma comp_cmp_eq a b : comp_cmp a b = Eq <-> a = b.
Proof.
  unfold comp_cmp. destruct a as [t v], b as [t' v']; simpl.
  destruct (N.compare_spec t t') as [->|E|E].
  - destruct (N.compare_spec (N.of_nat (length v)) (N.of_nat (length v'))) as [E|E|E].
    + rewrite bytes_cmp_eq. split; congruence.
    + split; [discriminate|]. intros [= ->]. lia.
    + split; [discriminate|]. intros [= ->]. lia.
  - split; [discriminate|]. intros [= -> ->]. lia.
  - split; [discriminate|]. intros [= -> ->]. lia.
Qed.
Lemma comp_cmp_antisym a b : comp_cmp b a = CompOpp (comp_cmp a b).
Proof.
  unfold comp_cmp. rewrite (N.compare_antisym (ctype a) (ctype b)).
  destruct (ctype a ?= ctype b); simpl; auto.
  rewrite (N.compare_antisym (N.of_nat (length (cval a))) (N.of_nat (length (cval b)))).
  destruct (N.of_nat (length (cval a)) ?= _); simpl; auto. apply bytes_cmp_antisym.
Qed.
Lemma comp_cmp_trans a b c : comp_cmp a b = Lt -> comp_cmp b c = Lt -> comp_cmp a c = Lt.
Proof.
  unfold comp_cmp. destruct a as [t1 v1], b as [t2 v2], c as [t3 v3]; simpl. intros H1 H2.
  destruct (N.compare_spec t1 t2); destruct (N.compare_spec t2 t3); try discriminate;
  destruct (N.compare_spec t1 t3); try lia; auto.
  destruct (N.compare_spec (N.of_nat (length v1)) (N.of_nat (length v2)));
  destruct (N.compare_spec (N.of_nat (length v2)) (N.of_nat (length v3))); try discriminate;
  destruct (N.compare_spec (N.of_nat (length v1)) (N.of_nat (length v3))); try lia; auto.
  eapply bytes_cmp_trans; eauto.
Qed.

Lemma name_cmp_eq a b : name_cmp a b = Eq <-> a = b.
Proof.
  revert b; induction a as [|x a IH]; destruct b as [|y b]; simpl; try (split; congruence).
  destruct (comp_cmp x y) eqn:E.
  - apply comp_cmp_eq in E as ->. rewrite IH. split; congruence.
  - split; [discriminate|]. intros [= -> ->]. rewrite (proj2 (comp_cmp_eq y y)) in E; congruence.
  - split; [discriminate|]. intros [= -> ->]. rewrite (proj2 (comp_cmp_eq y y)) in E; congruence.
Qed.
Lemma name_cmp_refl a : name_cmp a a = Eq.
Proof. apply name_cmp_eq. reflexivity. Qed.
Lemma name_cmp_antisym a b : name_cmp b a = CompOpp (name_cmp a b).
Proof.
  revert b; induction a as [|x a IH]; destruct b as [|y b]; simpl; auto.
  rewrite (comp_cmp_antisym x y). destruct (comp_cmp x y); simpl; auto.
Qed.
Lemma name_cmp_trans a b c : name_cmp a b = Lt -> name_cmp b c = Lt -> name_cmp a c = Lt.
Proof.
  revert b c; induction a as [|x a IH]; destruct b as [|y b]; destruct c as [|z c]; simpl; try congruence.
  intros H1 H2. destruct (comp_cmp x y) eqn:E1; try discriminate.
  - apply comp_cmp_eq in E1 as ->. destruct (comp_cmp y z); auto. eauto.
  - destruct (comp_cmp y z) eqn:E2; try discriminate.
    + apply comp_cmp_eq in E2 as ->. rewrite E1. reflexivity.
    + rewrite (comp_cmp_trans _ _ _ E1 E2). reflexivity.
Qed.

Definition name_lt (a b : name) : Prop := name_cmp a b = Lt.
Lemma name_lt_trans a b c : name_lt a b -> name_lt b c -> name_lt a c.
Proof. apply name_cmp_trans. Qed.
Lemma name_lt_irrefl a : ~ name_lt a a.
Proof. unfold name_lt. rewrite name_cmp_refl. discriminate. Qed.
Lemma name_cmp_gt a b : name_cmp a b = Gt <-> name_lt b a.
Proof. unfold name_lt. rewrite (name_cmp_antisym a b). destruct (name_cmp a b); simpl; split; congruence. Qed.

(** ** Prefixes *)
Lemma is_prefix_iff p n : is_prefix p n = true <-> exists r, n = p ++ r.
Proof.
  revert n; induction p as [|x p IH]; intros n; simpl; [split; eauto|].
  destruct n as [|y n]; [split; [discriminate|intros (r & E); discriminate]|].
  rewrite andb_true_iff, comp_eqb_eq, IH. split.
  - intros [-> (r & ->)]. eauto.
  - intros (r & E). injection E as -> ->. eauto.
Qed.
Lemma is_prefix_refl n : is_prefix n n = true.
Proof. apply is_prefix_iff. exists []. now rewrite app_nil_r. Qed.
Lemma is_prefix_app n r : is_prefix n (n ++ r) = true.
Proof. apply is_prefix_iff. eauto. Qed.

(** ** Number components *)
Lemma nni_length n : In (length (nni n)) [1; 2; 4; 8]%nat.
Proof.
  unfold nni. repeat destruct (_ <=? _); rewrite be_enc_length; simpl; auto.
Qed.
Lemma nni_dec n : n < two64 -> be_dec (nni n) = n.
Proof.
  unfold two64, nni. intros.
  destruct (N.leb_spec n 0xff); [apply be_dec_enc_small; change (256 ^ N.of_nat 1) with 256; lia|].
  destruct (N.leb_spec n 0xffff); [apply be_dec_enc_small; change (256 ^ N.of_nat 2) with 65536; lia|].
  destruct (N.leb_spec n 0xffffffff);
    [apply be_dec_enc_small; change (256 ^ N.of_nat 4) with 4294967296; lia|].
  apply be_dec_enc_small; auto.
Qed.
Lemma number_is_number t n : is_number (number_comp t n) = true.
Proof.
  unfold is_number, number_comp; simpl cval. pose proof (nni_length n) as H. simpl in H.
  destruct H as [<-|[<-|[<-|[<-|[]]]]]; reflexivity.
Qed.
Lemma to_number_number t n : n < two64 -> to_number (number_comp t n) = Ok n.
Proof.
  intros. unfold to_number. rewrite number_is_number. simpl cval. rewrite nni_dec; auto.
Qed.
Lemma number_comp_inj t t' n n' :
  n < two64 -> n' < two64 -> number_comp t n = number_comp t' n' -> t = t' /\ n = n'.
Proof.
  intros H H' E. unfold number_comp in E. injection E as -> E. split; auto.
  rewrite <- (nni_dec n), <- (nni_dec n'), E; auto.
Qed.
Lemma to_number_lt c n : to_number c = Ok n -> n < two64.
Proof.
  unfold to_number. destruct (is_number c) eqn:E; [|discriminate]. intros [= <-].
  eapply N.lt_le_trans; [apply be_dec_bound|].
  unfold is_number in E.
  assert (length (cval c) <= 8)%nat.
  { destruct (length (cval c)) as [|[|[|[|[|[|[|[|[|]]]]]]]]]; try discriminate; lia. }
  change two64 with (256 ^ 8). apply N.pow_le_mono_r; lia.
Qed.
Lemma number_is_segment n : is_segment (number_comp TYPE_SEGMENT n) = true.
Proof. unfold is_segment. rewrite number_is_number. reflexivity. Qed.
Lemma wf_number_comp t n : 0 < t -> t < two32 -> wf_comp (number_comp t n).
Proof.
  intros. repeat split; auto. simpl. pose proof (nni_length n) as L. simpl in L.
  destruct L as [<-|[<-|[<-|[<-|[]]]]]; reflexivity.
Qed.

(** appending and splitting *)
Lemma name_get_back_snoc n c : name_get_back (n ++ [c]) 1 = Ok c.
Proof.
  unfold name_get_back, name_get. rewrite app_length. cbn [length].
  destruct (Nat.leb_spec 1 (length n + 1)); [|lia].
  rewrite nth_error_app2 by lia. replace (length n + 1 - 1 - length n)%nat with 0%nat by lia. reflexivity.
Qed.
Lemma name_prefix_back_snoc n c : name_prefix_back (n ++ [c]) 1 = n.
Proof.
  unfold name_prefix_back. rewrite app_length. cbn [length].
  replace (length n + 1 - 1)%nat with (length n) by lia.
  rewrite firstn_app, Nat.sub_diag, firstn_all, firstn_O, app_nil_r. reflexivity.
Qed.
Lemma snoc_inj {A} (a b : list A) x y : a ++ [x] = b ++ [y] -> a = b /\ x = y.
Proof. apply app_inj_tail. Qed.
Lemma append_number_inj p q n k :
  n < two64 -> k < two64 -> append_number p n = append_number q k -> p = q /\ n = k.
Proof.
  intros Hn Hk H. apply snoc_inj in H as [-> H]. apply number_comp_inj in H; tauto.
Qed.

(** ** State *)
Lemma wf_name_elem n : wf_name n -> wf_elem TYPE_NAME (name_value n).
Proof. intros [_ H]. repeat split; auto. Qed.

Lemma flat_map_name_wire l :
  flat_map name_wire l =
  flat_map (fun e => tlv (fst e) (snd e)) (map (fun n => (TYPE_NAME, name_value n)) l).
Proof. induction l as [|n l IH]; simpl; [reflexivity|]. rewrite IH. reflexivity. Qed.

Lemma decode_elems_names l :
  Forall wf_name l ->
  decode_elems (map (fun n => (TYPE_NAME, name_value n)) l) = (l, Ok tt).
Proof.
  induction 1 as [|n l H _ IH]; [reflexivity|]. cbn [map decode_elems].
  rewrite N.eqb_refl, name_of_value_roundtrip by apply H. rewrite IH. reflexivity.
Qed.

Definition wf_names (l : list name) : Prop :=
  Forall wf_name l /\ N.of_nat (length (flat_map name_wire l)) < two64.

Lemma read_block_encode l :
  wf_names l ->
  read_block (encode_names l) = Some (TYPE_PSYNC_CONTENT, flat_map name_wire l).
Proof.
  intros [_ H]. unfold read_block, encode_names.
  rewrite <- (app_nil_r (tlv _ _)), read_elem_tlv; [reflexivity|]. repeat split; auto.
Qed.

Lemma parse_names l :
  Forall wf_name l ->
  parse_elems (flat_map name_wire l) = Some (map (fun n => (TYPE_NAME, name_value n)) l).
Proof.
  intros H. rewrite flat_map_name_wire. apply parse_elems_all.
  apply Forall_forall. intros e He. apply in_map_iff in He as (n & <- & Hn). simpl.
  apply wf_name_elem. rewrite Forall_forall in H. auto.
Qed.

Lemma state_roundtrip l : wf_names l -> state_of_buffer (encode_names l) = Ok l.
Proof.
  intros Hw. unfold state_of_buffer. rewrite read_block_encode by assumption.
  unfold wire_decode. rewrite N.eqb_refl, parse_names by apply Hw.
  rewrite decode_elems_names by apply Hw. reflexivity.
Qed.

Lemma decode_elems_ok l ns :
  decode_elems l = (ns, Ok tt) ->
  Forall2 (fun e n => fst e = TYPE_NAME /\ name_of_value (snd e) = Some n) l ns.
Proof.
  revert ns; induction l as [|[t v] l IH]; intros ns H; simpl in H.
  - injection H as <-. constructor.
  - destruct (N.eqb_spec t TYPE_NAME) as [->|]; [|discriminate].
    destruct (name_of_value v) as [n|] eqn:E; [|discriminate].
    destruct (decode_elems l) as [ns' o]. injection H as <- ->.
    constructor; auto.
Qed.

Lemma decode_elems_fail l ns e :
  decode_elems l = (ns, Throw e) ->
  ~ exists ns', Forall2 (fun e n => fst e = TYPE_NAME /\ name_of_value (snd e) = Some n) l ns'.
Proof.
  revert ns; induction l as [|[t v] l IH]; intros ns H (ns' & F); simpl in H; [discriminate|].
  inversion F as [|x y l1 l2 [E1 E2] F']; subst. simpl in *. subst t.
  rewrite N.eqb_refl, E2 in H. destruct (decode_elems l) as [ns2 o] eqn:Ed. injection H as <- ->.
  eapply IH; eauto.
Qed.

Lemma decode_elems_outcome l : exists ns, decode_elems l = (ns, Ok tt) \/ exists e, decode_elems l = (ns, Throw e).
Proof.
  induction l as [|[t v] l (ns & IH)]; simpl; eauto.
  destruct (t =? TYPE_NAME); [|eauto]. destruct (name_of_value v); [|eauto].
  destruct IH as [E|(e & E)]; rewrite E; eauto.
Qed.
