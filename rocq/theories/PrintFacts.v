(** Lemmas about the output operators (C119). *)
From Coq Require Import List NArith ZArith Bool Lia Ascii String.
From Coq.Numbers Require Import DecimalString DecimalN DecimalZ.
From Verif Require Import Base BaseFacts Murmur Iblt Tlv Bloom Print.
Import ListNotations.

Lemma lit_inj s s' : lit s = lit s' -> s = s'.
Proof.
  intros H. rewrite <- (string_of_list_ascii_of_string s), <- (string_of_list_ascii_of_string s').
  unfold lit in H. rewrite H. reflexivity.
Qed.
Lemma dec_Z_inj a b : dec_Z a = dec_Z b -> a = b.
Proof.
  unfold dec_Z. intros H. apply lit_inj in H. apply DecimalZ.to_int_inj.
  pose proof (NilEmpty.isi (Z.to_int a)) as A. rewrite H, NilEmpty.isi in A. congruence.
Qed.
Lemma dec_N_inj a b : dec_N a = dec_N b -> a = b.
Proof.
  unfold dec_N. intros H. apply lit_inj in H. apply DecimalN.Unsigned.to_uint_inj.
  pose proof (NilEmpty.usu (N.to_uint a)) as A. rewrite H, NilEmpty.usu in A. congruence.
Qed.

(** no spaces in numbers *)
Definition no_blank (l : chars) : Prop := ~ In " "%char l.
Lemma uint_no_blank d : no_blank (lit (NilEmpty.string_of_uint d)).
Proof.
  unfold no_blank, lit. induction d; cbn; try (intros [H|H]; [discriminate|auto]). auto.
Qed.
Lemma dec_N_no_blank n : no_blank (dec_N n).
Proof. apply uint_no_blank. Qed.
Lemma dec_Z_no_blank z : no_blank (dec_Z z).
Proof.
  unfold dec_Z. destruct (Z.to_int z) as [d|d]; cbn [NilEmpty.string_of_int]; [apply uint_no_blank|].
  intros H. change (lit (String "-" (NilEmpty.string_of_uint d))) with ("-"%char :: lit (NilEmpty.string_of_uint d)) in H.
  destruct H as [H|H]; [discriminate|]. exact (uint_no_blank d H).
Qed.

(** cutting at the first separator *)
Lemma cut (c : ascii) a a' x x' : ~ In c a -> ~ In c a' -> a ++ c :: x = a' ++ c :: x' -> a = a' /\ x = x'.
Proof.
  revert a'; induction a as [|y a IH]; intros [|y' a'] Ha Ha' E; cbn [app] in E.
  - injection E as ->. auto.
  - injection E as <- _. exfalso. apply Ha'. left. reflexivity.
  - injection E as -> _. exfalso. apply Ha. left. reflexivity.
  - injection E as -> E. apply IH in E as [-> ->]; auto; intros H; [apply Ha|apply Ha']; right; exact H.
Qed.

Lemma print_cell_app c c' r r' : print_cell c ++ r = print_cell c' ++ r' ->
  c_count c = c_count c' /\ c_sum c = c_sum c' /\ check_matches c = check_matches c' /\ r = r'.
Proof.
  unfold print_cell. rewrite <- !app_assoc. cbn [app]. intros E.
  apply cut in E as [E1 E]; try apply dec_Z_no_blank. rewrite <- !app_assoc in E. cbn [app] in E.
  apply cut in E as [E2 E]; try apply dec_N_no_blank. apply dec_Z_inj in E1. apply dec_N_inj in E2.
  split; [exact E1|]. split; [exact E2|].
  destruct (check_matches c), (check_matches c'); cbn in E; try discriminate; injection E as ->; auto.
Qed.
Lemma print_cell_cons c : exists x l, print_cell c = x :: l.
Proof.
  destruct (print_cell c) eqn:E; [|eauto]. unfold print_cell in E. apply app_eq_nil in E as [_ E]. discriminate.
Qed.

Definition printed_alike (c c' : cell) : Prop :=
  c_count c = c_count c' /\ c_sum c = c_sum c' /\ check_matches c = check_matches c'.

Lemma print_iblt_inj t t' : print_iblt t = print_iblt t' -> Forall2 printed_alike t t'.
Proof.
  unfold print_iblt. intros E. apply app_inv_head in E. revert t' E.
  induction t as [|c t IH]; intros [|c' t'] E; cbn [flat_map] in E.
  - constructor.
  - destruct (print_cell_cons c') as (x & l & F). rewrite F in E. discriminate.
  - destruct (print_cell_cons c) as (x & l & F). rewrite F in E. discriminate.
  - apply print_cell_app in E as (E1 & E2 & E3 & E). constructor; [repeat split; assumption|apply IH; exact E].
Qed.
Lemma print_iblt_ext t t' : Forall2 printed_alike t t' -> print_iblt t = print_iblt t'.
Proof.
  unfold print_iblt. intros H. f_equal. induction H as [|c c' t t' (A & B & C) _ IH]; [reflexivity|].
  cbn [flat_map]. rewrite IH. f_equal. unfold print_cell. rewrite A, B, C. reflexivity.
Qed.

(** hexadecimal *)
Lemma hex_digit_inj a b : (a < 16)%N -> (b < 16)%N -> hex_digit a = hex_digit b -> a = b.
Proof.
  intros Ha Hb H. unfold hex_digit in H. apply (f_equal N_of_ascii) in H.
  rewrite !N_ascii_embedding in H by (destruct (N.ltb_spec a 10), (N.ltb_spec b 10); lia).
  destruct (N.ltb_spec a 10), (N.ltb_spec b 10); lia.
Qed.
Lemma print_byte_inj a b : print_byte a = print_byte b -> a = b.
Proof.
  unfold print_byte. intros [= A B]. pose proof (b2n_lt a). pose proof (b2n_lt b).
  assert (b2n a / 16 < 16)%N by (apply N.div_lt_upper_bound; lia).
  assert (b2n b / 16 < 16)%N by (apply N.div_lt_upper_bound; lia).
  pose proof (N.mod_lt (b2n a) 16 ltac:(discriminate)). pose proof (N.mod_lt (b2n b) 16 ltac:(discriminate)).
  apply hex_digit_inj in A, B; auto. apply b2n_inj.
  rewrite (N.div_mod (b2n a) 16), (N.div_mod (b2n b) 16) by discriminate. congruence.
Qed.
Lemma print_bytes_inj a : forall b, flat_map print_byte a = flat_map print_byte b -> a = b.
Proof.
  induction a as [|x a IH]; intros [|y b] E; cbn [flat_map] in E; try discriminate; [reflexivity|].
  change (hex_digit (b2n x / 16) :: hex_digit (b2n x mod 16) :: flat_map print_byte a =
          hex_digit (b2n y / 16) :: hex_digit (b2n y mod 16) :: flat_map print_byte b) in E.
  injection E as E1 E2 E. f_equal; [apply print_byte_inj; unfold print_byte; congruence|apply IH; exact E].
Qed.

(** joined lists *)
Lemma join_cons sep x y r : join sep (x :: y :: r) = x ++ sep ++ join sep (y :: r).
Proof. reflexivity. Qed.
Lemma join_nonempty x r : x <> [] -> join (lit ", ") (x :: r) <> [].
Proof.
  intros Nx. destruct r as [|y r]; [exact Nx|]. rewrite join_cons. intros E. apply app_eq_nil in E as [E _]. exact (Nx E).
Qed.
Lemma join_inj (l : list chars) : forall l', Forall (fun x => ~ In ","%char x /\ x <> []) l ->
  Forall (fun x => ~ In ","%char x /\ x <> []) l' -> join (lit ", ") l = join (lit ", ") l' -> l = l'.
Proof.
  assert (forall x y r, ~ In ","%char x -> x = join (lit ", ") (y :: r) -> r = []) as one.
  { intros x y [|z r] Hx E; [reflexivity|]. exfalso. apply Hx. rewrite E, join_cons. apply in_or_app. right. left. reflexivity. }
  induction l as [|x l IH]; intros [|x' l'] H H' E.
  - reflexivity.
  - inversion H' as [|? ? [_ Nx] _]; subst. destruct (join_nonempty x' l' Nx). symmetry. exact E.
  - inversion H as [|? ? [_ Nx] _]; subst. destruct (join_nonempty x l Nx). exact E.
  - inversion H as [|? ? [Hx Nx] Hl]; subst. inversion H' as [|? ? [Hx' Nx'] Hl']; subst.
    destruct l as [|y l].
    + pose proof (one x x' l' Hx E) as ->. change (x = x') in E. rewrite E. reflexivity.
    + destruct l' as [|y' l'].
      * pose proof (one x' x (y :: l) Hx' (eq_sym E)). discriminate.
      * rewrite !join_cons in E. change (lit ", ") with [","%char; " "%char] in E. cbn [app] in E.
        apply cut in E as [-> E]; auto. f_equal. apply IH; auto. injection E as E. exact E.
Qed.
