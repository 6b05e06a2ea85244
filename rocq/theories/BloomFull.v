(** Lemmas for C118: the hash reaches every value below every prefix, and how many bits of a filter
    are set. *)
From Coq Require Import List NArith ZArith Bool Lia Arith FinFun Floats.SpecFloat.
From Coq.Strings Require Import Byte.
From Verif Require Import Base BaseFacts Murmur MurmurFacts Tlv TlvFacts Bloom SpecBloom BloomFacts BloomParams.
Import ListNotations.
Local Open Scope N_scope.
Local Transparent murmur.

(** ** An injective function on the numbers below a bound reaches all of them *)
Lemma inj_onto (n : N) (f : N -> N) :
  (forall x, x < n -> f x < n) -> (forall x y, x < n -> y < n -> f x = f y -> x = y) ->
  forall y, y < n -> exists x, x < n /\ f x = y.
Proof.
  intros Hr Hi y Hy.
  set (l := map N.of_nat (seq 0 (N.to_nat n))).
  assert (forall x, In x l <-> x < n) as Hl.
  { intros x. unfold l. rewrite in_map_iff. split.
    - intros (k & <- & Hk). apply in_seq in Hk. lia.
    - intros Hx. exists (N.to_nat x). split; [lia|]. apply in_seq. lia. }
  assert (NoDup l) as Hd.
  { unfold l. apply FinFun.Injective_map_NoDup; [intros a b; lia|apply seq_NoDup]. }
  assert (NoDup (map f l)) as Hd'.
  { clear Hr Hy. assert (forall x, In x l -> x < n) as Hb by (intros; apply Hl; auto). clear Hl.
    clearbody l. induction Hd as [|a l Ha Hd IH]; cbn [map]; constructor.
    - rewrite in_map_iff. intros (b & E & Hin). apply Ha.
      rewrite <- (Hi b a); auto with datatypes.
    - apply IH. intros x Hx. apply Hb. right. exact Hx. }
  assert (incl l (map f l)) as Hc.
  { apply NoDup_length_incl; [exact Hd'|rewrite map_length; lia|].
    intros z. rewrite in_map_iff. intros (x & <- & Hx). apply Hl, Hr, Hl, Hx. }
  apply Hl in Hy. apply Hc in Hy. apply in_map_iff in Hy as (x & E & Hx). exists x. split; [apply Hl, Hx|exact E].
Qed.

(** ** The hash of a buffer as a function of its last word *)
Lemma murmur_body_last w : length w = 4%nat -> forall k a h, length a = (4 * k)%nat ->
  murmur_body h (a ++ w) = (body_step (fst (murmur_body h a)) (le_dec w), []).
Proof.
  intros Hw k. induction k as [|k IH]; intros a h Ha.
  - destruct a; [|discriminate].
    destruct w as [|b0 [|b1 [|b2 [|b3 [|b4 r]]]]]; try discriminate. reflexivity.
  - destruct a as [|b0 [|b1 [|b2 [|b3 r]]]]; cbn [length] in Ha; try lia.
    cbn [app murmur_body]. apply IH. lia.
Qed.

Lemma murmur_last_onto seed a k y : seed < two32 -> y < two32 -> length a = (4 * k)%nat ->
  exists x, x < two32 /\ murmur seed (a ++ le_enc 4 x) = y.
Proof.
  intros Hs Hy Ha.
  assert (forall x, x < two32 -> murmur seed (a ++ le_enc 4 x) =
    fmix (N.lxor (body_step (fst (murmur_body seed a)) x) (w32 (N.of_nat (4 * k + 4))))) as E.
  { intros x Hx. unfold murmur. rewrite (murmur_body_last (le_enc 4 x) (le_enc_length 4 x) k a seed Ha).
    cbn [murmur_tail]. rewrite app_length, le_enc_length, Ha. rewrite le_dec_enc4 by exact Hx. reflexivity. }
  pose proof (murmur_body_lt a seed Hs) as Hb.
  apply (inj_onto two32 (fun x => murmur seed (a ++ le_enc 4 x))); [| |exact Hy].
  - intros x _. apply murmur_lt. exact Hs.
  - intros x x' Hx Hx'. rewrite !E by assumption. intros F.
    apply fmix_inj in F; try (apply xor32_lt; auto using body_step_lt; apply w32_lt).
    apply lxor_cancel_r in F. apply body_step_inj in F; auto.
Qed.

(** below every name, some generic component gives every hash value *)
Definition pad (p : name) : nat := (4 - (length (name_value p) + 2) mod 4)%nat.

Lemma comp_wire_short v : (length v < 253)%nat ->
  comp_wire (mkComp TYPE_GENERIC v) = n2b 8 :: n2b (N.of_nat (length v)) :: v.
Proof.
  intros H. unfold comp_wire, tlv. cbn [ctype cval]. unfold write_var.
  destruct (N.ltb_spec (N.of_nat (length v)) 253); [|lia]. reflexivity.
Qed.

Lemma name_hash_onto seed p y : seed < two32 -> y < two32 ->
  exists v, (length v <= 8)%nat /\ murmur seed (name_value (p ++ [mkComp TYPE_GENERIC v])) = y.
Proof.
  intros Hs Hy.
  assert ((length (name_value p) + 2) mod 4 < 4)%nat as Hm by (apply Nat.mod_upper_bound; lia).
  set (a := name_value p ++ n2b 8 :: n2b (N.of_nat (pad p + 4)) :: repeat (n2b 0) (pad p)).
  assert (exists k, length a = (4 * k)%nat) as (k & Ha).
  { exists (S ((length (name_value p) + 2) / 4)). unfold a. rewrite app_length. cbn [length].
    rewrite repeat_length. unfold pad.
    pose proof (Nat.div_mod (length (name_value p) + 2) 4 ltac:(lia)). lia. }
  destruct (murmur_last_onto seed a k y Hs Hy Ha) as (x & _ & E).
  exists (repeat (n2b 0) (pad p) ++ le_enc 4 x).
  assert (length (repeat (n2b 0) (pad p) ++ le_enc 4 x) = pad p + 4)%nat as Hl.
  { rewrite app_length, repeat_length, le_enc_length. reflexivity. }
  split; [rewrite Hl; unfold pad; lia|].
  rewrite <- E. f_equal. unfold name_value, a. rewrite flat_map_app. cbn [flat_map].
  rewrite app_nil_r, comp_wire_short by (rewrite Hl; unfold pad; lia). rewrite Hl.
  rewrite <- app_assoc. reflexivity.
Qed.

(** ** Salts and sizes are 32-bit numbers *)
Lemma set_nth_forall P l i v : Forall P l -> P v -> Forall P (set_nth l i v).
Proof.
  intros H Hv. revert i; induction H as [|x l Hx Hl IH]; intros [|i]; cbn [set_nth]; constructor; auto.
Qed.
Lemma rand_salts_lt L f i c l r : Forall (fun s => s < two32) l ->
  rand_salts L f i c l = Ok r -> Forall (fun s => s < two32) r.
Proof.
  revert i l; induction f as [|f IH]; intros i l Hl; cbn [rand_salts]; destruct (Nat.leb c (length l));
    try discriminate; try (intros [= <-]; exact Hl).
  destruct (_ || _); apply IH; auto. apply Forall_app. split; auto. constructor; [apply w32_lt|constructor].
Qed.
Lemma predef_lt : Forall (fun s => s < two32) predef_salt.
Proof. apply Forall_forall. intros s Hs. apply N.ltb_lt. revert s Hs. apply forallb_forall. vm_compute. reflexivity. Qed.
Lemma generate_salts_lt L k l : generate_salts L k = Ok l -> Forall (fun s => s < two32) l.
Proof.
  unfold generate_salts. destruct (k <=? 128).
  - intros [= <-]. assert (Forall (fun s => s < two32) (firstn (N.to_nat k) predef_salt)) as H.
    { apply Forall_forall. intros s Hs. pose proof predef_lt as P. rewrite Forall_forall in P. apply P.
      rewrite <- (firstn_skipn (N.to_nat k) predef_salt). apply in_or_app. left. exact Hs. }
    unfold mix_salts. revert H. generalize (firstn (N.to_nat k) predef_salt) at 1 3. intros l0 H.
    generalize (seq 0 (length (firstn (N.to_nat k) predef_salt))). intros is. revert l0 H.
    induction is as [|i is IH]; intros l0 H; cbn [fold_left]; [exact H|]. apply IH.
    apply set_nth_forall; [exact H|apply w32_lt].
  - apply rand_salts_lt, predef_lt.
Qed.
Lemma round_size_lt ts : round_size ts < two32.
Proof.
  unfold round_size. cbv zeta. match goal with |- context [w32 ?a] => generalize (w32_lt a); generalize (w32 a) end.
  intros x Hx. destruct (x <? 1); [reflexivity|exact Hx].
Qed.
Lemma bloom_new_words L count p b : bloom_new L count p = Ok b ->
  Forall (fun s => s < two32) (b_salt b) /\ b_size b < two32.
Proof.
  intros H. pose proof H as H0. apply bloom_new_inv in H0 as (nh & ts & E & _). split.
  - unfold bloom_new in H. apply obind_ok in H as ([a c] & _ & H). apply obind_ok in H as (s & Es & H).
    injection H as <-. cbn [b_salt]. apply generate_salts_lt in Es. exact Es.
  - rewrite E. cbn [b_size]. apply round_size_lt.
Qed.

(** ** A filter with a clear bit *)
Lemma clear_bit_rejects b p j : bloom_sound b -> b_salt b <> [] ->
  Forall (fun s => s < two32) (b_salt b) -> b_size b < two32 ->
  j < b_size b -> tbit (b_tab b) j = false ->
  exists v, (length v <= 8)%nat /\ bloom_contains b (p ++ [mkComp TYPE_GENERIC v]) = Ok false.
Proof.
  intros Hb Hn Hs Hz Hj Hf. destruct (b_salt b) as [|s r] eqn:Es; [contradiction|].
  inversion Hs as [|? ? Hs1 _]; subst.
  destruct (name_hash_onto s p j Hs1) as (v & Hl & E); [lia|].
  exists v. split; [exact Hl|]. rewrite bloom_contains_ok by exact Hb. rewrite Es. cbn [idx map forallb].
  rewrite E, N.mod_small by exact Hj. rewrite Hf. reflexivity.
Qed.

(** ** Counting *)
(** the bits that are set *)
Definition all_bits (n : N) : list N := map N.of_nat (seq 0 (N.to_nat n)).
Lemma all_bits_in n x : In x (all_bits n) <-> x < n.
Proof.
  unfold all_bits. rewrite in_map_iff. split.
  - intros (k & <- & Hk). apply in_seq in Hk. lia.
  - intros Hx. exists (N.to_nat x). split; [lia|]. apply in_seq. lia.
Qed.
Lemma all_bits_NoDup n : NoDup (all_bits n).
Proof. apply FinFun.Injective_map_NoDup; [intros a b; lia|apply seq_NoDup]. Qed.
Lemma all_bits_length n : length (all_bits n) = N.to_nat n.
Proof. unfold all_bits. rewrite map_length, seq_length. reflexivity. Qed.

Lemma memsN_in j size salts ns : memsN j size salts ns = true <-> In j (flat_map (idx size salts) ns).
Proof.
  unfold memsN. rewrite existsb_exists, in_flat_map. split; intros (n & Hn & H); exists n; (split; [exact Hn|]).
  - unfold memN in H. apply existsb_exists in H as (k & Hk & E). apply N.eqb_eq in E. subst k. exact Hk.
  - unfold memN. apply existsb_exists. exists j. split; [exact H|apply N.eqb_refl].
Qed.
Lemma idx_length size salts ns : length (flat_map (idx size salts) ns) = (length salts * length ns)%nat.
Proof.
  induction ns as [|n ns IH]; cbn [flat_map length]; [lia|]. rewrite app_length, IH. unfold idx. rewrite map_length. lia.
Qed.
