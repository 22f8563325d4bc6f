(** Proofs about the platform layer. *)
Require Import Coq.NArith.NArith Coq.ZArith.ZArith Coq.Lists.List Coq.Bool.Bool Coq.Arith.Arith Lia ZifyN.
Require Import Verif.Base Verif.Platform_Model Verif.Platform_Spec.
Import ListNotations.
Local Open Scope N_scope.

(** ** Byte swaps *)
Lemma byte_bit : forall x i n, N.testbit (byte x i) n = (n <? 8) && N.testbit x (n + 8 * i).
Proof.
  intros x i n. unfold byte. replace (256 ^ i) with (2 ^ (8 * i)) by (rewrite N.pow_mul_r; reflexivity).
  change 256 with (2 ^ 8). destruct (N.ltb_spec n 8) as [H|H].
  - rewrite N.mod_pow2_bits_low by exact H. rewrite N.div_pow2_bits. reflexivity.
  - rewrite N.mod_pow2_bits_high by exact H. reflexivity.
Qed.
Lemma high_bits : forall x m n, x < 2 ^ m -> m <= n -> N.testbit x n = false.
Proof.
  intros x m n Hx Hn. destruct (N.eq_dec x 0) as [->|H0]; [apply N.bits_0|].
  apply N.bits_above_log2. apply N.log2_lt_pow2 in Hx; lia.
Qed.
Lemma bits_small : forall x m, (forall n, m <= n -> N.testbit x n = false) -> x < 2 ^ m.
Proof.
  intros x m H. destruct (N.lt_ge_cases x (2 ^ m)) as [L|L]; [exact L|exfalso].
  assert (H0 : x <> 0) by (pose proof (N.pow_nonzero 2 m); lia).
  assert (Hm : m <= N.log2 x) by (apply N.log2_le_pow2; lia).
  pose proof (H _ Hm) as E. rewrite (N.bit_log2 x H0) in E. discriminate.
Qed.
Lemma mask1 : forall n, N.testbit 0x00ff0000 n = (16 <=? n) && (n <? 24).
Proof.
  intros n. change 0x00ff0000 with (N.shiftl (N.ones 8) 16). destruct (N.leb_spec 16 n) as [H|H].
  - rewrite N.shiftl_spec_high' by exact H. destruct (N.ltb_spec n 24) as [L|L].
    + apply N.ones_spec_low. lia.
    + apply N.ones_spec_high. lia.
  - apply N.shiftl_spec_low. exact H.
Qed.
Lemma mask2 : forall n, N.testbit 0x0000ff00 n = (8 <=? n) && (n <? 16).
Proof.
  intros n. change 0x0000ff00 with (N.shiftl (N.ones 8) 8). destruct (N.leb_spec 8 n) as [H|H].
  - rewrite N.shiftl_spec_high' by exact H. destruct (N.ltb_spec n 16) as [L|L].
    + apply N.ones_spec_low. lia.
    + apply N.ones_spec_high. lia.
  - apply N.shiftl_spec_low. exact H.
Qed.
Lemma shl_mod_bit : forall x k m n, N.testbit (N.shiftl x k mod 2 ^ m) n = (n <? m) && (k <=? n) && N.testbit x (n - k).
Proof.
  intros x k m n. destruct (N.ltb_spec n m) as [H|H].
  - rewrite N.mod_pow2_bits_low by exact H. destruct (N.leb_spec k n) as [L|L].
    + rewrite N.shiftl_spec_high' by exact L. reflexivity.
    + rewrite N.shiftl_spec_low by exact L. reflexivity.
  - rewrite N.mod_pow2_bits_high by exact H. reflexivity.
Qed.
Lemma swap16_bit : forall x n, x < 2 ^ 16 -> N.testbit (swap16 x) n = if n <? 8 then N.testbit x (n + 8) else if n <? 16 then N.testbit x (n - 8) else false.
Proof.
  intros x n Hx. unfold swap16. rewrite N.lor_spec, shl_mod_bit, N.shiftr_spec'.
  destruct (N.ltb_spec n 8) as [H|H].
  - rewrite (proj2 (N.leb_gt 8 n)) by lia. rewrite andb_false_r. reflexivity.
  - rewrite (high_bits x 16 (n + 8)) by (exact Hx || lia). rewrite (proj2 (N.leb_le 8 n)) by lia. rewrite andb_true_r, orb_false_r.
    destruct (n <? 16); reflexivity.
Qed.
Lemma swap32_bit : forall x n, x < 2 ^ 32 -> N.testbit (swap32 x) n =
  if n <? 8 then N.testbit x (n + 24) else if n <? 16 then N.testbit x (n + 8) else
  if n <? 24 then N.testbit x (n - 8) else if n <? 32 then N.testbit x (n - 24) else false.
Proof.
  intros x n Hx. unfold swap32. rewrite !N.lor_spec, !N.land_spec, !shl_mod_bit, !N.shiftr_spec', mask1, mask2.
  destruct (N.ltb_spec n 8) as [H1|H1].
  { rewrite (proj2 (N.leb_gt 24 n)), (proj2 (N.leb_gt 16 n)), (proj2 (N.leb_gt 8 n)) by lia. cbn [andb]. rewrite !andb_false_r. reflexivity. }
  rewrite (high_bits x 32 (n + 24)) by (exact Hx || lia). rewrite orb_false_r.
  destruct (N.ltb_spec n 16) as [H2|H2].
  { rewrite (proj2 (N.leb_gt 24 n)), (proj2 (N.leb_gt 16 n)), (proj2 (N.leb_le 8 n)) by lia. cbn [andb]. rewrite !andb_false_r, andb_true_r. reflexivity. }
  rewrite (proj2 (N.leb_le 8 n)), (proj2 (N.leb_le 16 n)) by lia.
  destruct (N.ltb_spec n 24) as [H3|H3].
  { rewrite (proj2 (N.leb_gt 24 n)), (proj2 (N.ltb_lt n 32)) by lia. cbn [andb orb]. rewrite !andb_false_r, andb_true_r, orb_false_r. reflexivity. }
  rewrite (proj2 (N.leb_le 24 n)) by lia. cbn [andb]. rewrite !andb_false_r, !orb_false_r, andb_true_r. destruct (n <? 32); reflexivity.
Qed.
Lemma reversed16 : forall x, x < 2 ^ 16 -> reversed 2 x (swap16 x).
Proof.
  intros x Hx. split.
  - change (256 ^ 2) with (2 ^ 16). apply bits_small. intros n Hn. rewrite swap16_bit by exact Hx.
    destruct (N.ltb_spec n 8); [lia|]. destruct (N.ltb_spec n 16); [lia|reflexivity].
  - intros i Hi. apply N.bits_inj. intros n. rewrite !byte_bit. destruct (N.ltb_spec n 8) as [H|H]; [cbn [andb]|reflexivity].
    rewrite swap16_bit by exact Hx. assert (Hc : i = 0 \/ i = 1) by lia.
    destruct Hc as [-> | ->]; repeat match goal with |- context [?a <? ?b] => destruct (N.ltb_spec a b); try lia end; f_equal; lia.
Qed.
Lemma reversed32 : forall x, x < 2 ^ 32 -> reversed 4 x (swap32 x).
Proof.
  intros x Hx. split.
  - change (256 ^ 4) with (2 ^ 32). apply bits_small. intros n Hn. rewrite swap32_bit by exact Hx.
    repeat match goal with |- context [?a <? ?b] => destruct (N.ltb_spec a b); try lia end; try reflexivity.
  - intros i Hi. apply N.bits_inj. intros n. rewrite !byte_bit. destruct (N.ltb_spec n 8) as [H|H]; [cbn [andb]|reflexivity].
    rewrite swap32_bit by exact Hx. assert (Hc : i = 0 \/ i = 1 \/ i = 2 \/ i = 3) by lia.
    destruct Hc as [-> |[-> |[-> | ->]]]; repeat match goal with |- context [?a <? ?b] => destruct (N.ltb_spec a b); try lia end; f_equal; lia.
Qed.
(** Numbers with the same bytes are equal. *)
Lemma same_bytes : forall w x y, x < 256 ^ w -> y < 256 ^ w -> (forall i, i < w -> byte x i = byte y i) -> x = y.
Proof.
  intros w x y Hx Hy H. replace (256 ^ w) with (2 ^ (8 * w)) in * by (rewrite N.pow_mul_r; reflexivity).
  apply N.bits_inj. intros n. destruct (N.lt_ge_cases n (8 * w)) as [L|L].
  - assert (Hq : n / 8 < w) by (apply N.div_lt_upper_bound; lia).
    pose proof (f_equal (fun z => N.testbit z (n mod 8)) (H _ Hq)) as E. cbn beta in E. rewrite !byte_bit in E.
    assert (Hr : n mod 8 < 8) by (apply N.mod_lt; lia).
    rewrite (proj2 (N.ltb_lt _ _) Hr) in E. cbn [andb] in E.
    pose proof (N.div_mod n 8 ltac:(lia)) as D. replace (n mod 8 + 8 * (n / 8)) with n in E by lia. exact E.
  - rewrite (high_bits x _ _ Hx L), (high_bits y _ _ Hy L). reflexivity.
Qed.
Lemma reversed_twice : forall w x y z, x < 256 ^ w -> reversed w x y -> reversed w y z -> z = x.
Proof.
  intros w x y z Hx [Hy Hxy] [Hz Hyz]. apply (same_bytes w); auto. intros i Hi.
  rewrite (Hyz i Hi), (Hxy (w - 1 - i)) by lia. f_equal. lia.
Qed.
Lemma twice16 : forall x, x < 2 ^ 16 -> swap16 (swap16 x) = x.
Proof.
  intros x Hx. pose proof (reversed16 x Hx) as R. pose proof (proj1 R) as B. change (256 ^ 2) with (2 ^ 16) in B.
  exact (reversed_twice 2 x (swap16 x) _ Hx R (reversed16 _ B)).
Qed.
Lemma twice32 : forall x, x < 2 ^ 32 -> swap32 (swap32 x) = x.
Proof.
  intros x Hx. pose proof (reversed32 x Hx) as R. pose proof (proj1 R) as B. change (256 ^ 4) with (2 ^ 32) in B.
  exact (reversed_twice 4 x (swap32 x) _ Hx R (reversed32 _ B)).
Qed.
(** The swap of 64 bits has only 32 of them. *)
Lemma lost64 : forall x, swap64 x < 2 ^ 32.
Proof.
  intros x. unfold swap64. apply bits_small. intros n Hn. rewrite N.lor_spec.
  rewrite !swap32_bit by (apply N.mod_lt; discriminate).
  repeat match goal with |- context [?a <? ?b] => destruct (N.ltb_spec a b); try lia end; try reflexivity.
Qed.

(** ** Spin locks *)
Fixpoint inside_count (l : list place) : nat := match l with [] => 0 | Inside :: l' => S (inside_count l') | _ :: l' => inside_count l' end.
Definition one (p : place) : nat := match p with Inside => 1 | _ => 0 end.
Lemma count_cons : forall p l, inside_count (p :: l) = (one p + inside_count l)%nat.
Proof. intros []; reflexivity. Qed.
Lemma count_app : forall l l', inside_count (l ++ l') = (inside_count l + inside_count l')%nat.
Proof. induction l as [|p l IH]; intros l'; [reflexivity|]. change ((p :: l) ++ l') with (p :: (l ++ l')). rewrite !count_cons, IH. lia. Qed.
Lemma count_upd : forall b l i a, nth_error l i = Some a -> (inside_count (upd l i b) + one a = inside_count l + one b)%nat.
Proof.
  intros b; induction l as [|c l IH]; intros [|i] a H; cbn [nth_error] in H; try discriminate.
  - injection H as ->. cbn [upd]. rewrite !count_cons. lia.
  - cbn [upd]. rewrite !count_cons. specialize (IH i a H). lia.
Qed.
Lemma count_two : forall l i j, i <> j -> nth_error l i = Some Inside -> nth_error l j = Some Inside -> (2 <= inside_count l)%nat.
Proof.
  assert (H1 : forall l i, nth_error l i = Some Inside -> (1 <= inside_count l)%nat).
  { induction l as [|c l IH]; intros [|i] H; cbn [nth_error] in H; try discriminate; rewrite count_cons; [injection H as ->; cbn; lia|pose proof (IH i H); lia]. }
  induction l as [|c l IH]; intros [|i] [|j] Hij Hi Hj; cbn [nth_error] in Hi, Hj; try discriminate; try lia; rewrite count_cons.
  - injection Hi as ->. pose proof (H1 l j Hj). cbn. lia.
  - injection Hj as ->. pose proof (H1 l i Hi). cbn. lia.
  - pose proof (IH i j ltac:(lia) Hi Hj). lia.
Qed.
Definition sinv (s : spin) : Prop := word s = Z.of_nat (inside_count (places s)) /\ (inside_count (places s) <= 1)%nat.
Lemma sinv_step : forall s l, sinv s -> sinv (sstep s l).
Proof.
  intros s l HS. pose proof HS as [H1 H2]. destruct l as [|i|i|i]; cbn [sstep].
  - unfold sinv. cbn [word places]. rewrite count_app. cbn [inside_count]. split; [lia|lia].
  - destruct (nth_error (places s) i) as [[]|] eqn:E; try exact HS. pose proof (count_upd Spinning _ _ _ E) as C. cbn [one] in C.
    unfold sinv. cbn [word places]. split; lia.
  - destruct (nth_error (places s) i) as [[]|] eqn:E; try exact HS. unfold attempt. destruct (Z.eqb_spec (word s) 0) as [W|W]; [|exact HS].
    pose proof (count_upd Inside _ _ _ E) as C. cbn [one] in C. unfold sinv. cbn [word places]. split; lia.
  - destruct (nth_error (places s) i) as [[]|] eqn:E; try exact HS. pose proof (count_upd Outside _ _ _ E) as C. cbn [one] in C.
    unfold sinv. cbn [word places]. rewrite Z.land_0_r. split; lia.
Qed.
Lemma sinv_run : forall ls s, sinv s -> sinv (srun s ls).
Proof. unfold srun. induction ls as [|l ls IH]; intros s H; cbn [fold_left]; [exact H|]. apply IH. apply sinv_step. exact H. Qed.
Lemma sinv_init : sinv sinit.
Proof. split; [reflexivity|cbn; lia]. Qed.
Lemma spin_exclusion : forall ls i j, within (srun sinit ls) i -> within (srun sinit ls) j -> i = j.
Proof.
  intros ls i j Hi Hj. destruct (Nat.eq_dec i j) as [E|E]; [exact E|exfalso]. destruct (sinv_run ls _ sinv_init) as [_ H].
  pose proof (count_two _ _ _ E Hi Hj). lia.
Qed.
Lemma nth_upd_same : forall (l : list place) i a b, nth_error l i = Some a -> nth_error (upd l i b) i = Some b.
Proof. induction l as [|c l IH]; intros [|i] a b H; cbn in *; try discriminate; eauto. Qed.
Lemma spin_progress : forall ls i, nth_error (places (srun sinit ls)) i = Some Spinning -> (forall j, ~ within (srun sinit ls) j) ->
  within (sstep (srun sinit ls) (SStep i)) i.
Proof.
  intros ls i Hi HN. destruct (sinv_run ls _ sinv_init) as [H1 H2]. set (s := srun sinit ls) in *. cbn [sstep]. rewrite Hi. unfold attempt.
  assert (H0 : inside_count (places s) = 0%nat).
  { assert (G : forall l, (forall j, nth_error l j <> Some Inside) -> inside_count l = 0%nat).
    { induction l as [|c l IH]; intros H; [reflexivity|]. rewrite count_cons. rewrite IH by (intros j; exact (H (S j))). pose proof (H 0%nat) as Hc. cbn in Hc. destruct c; cbn; congruence. }
    apply G. exact HN. }
  rewrite H0 in H1. rewrite H1. cbn [Z.of_nat Z.eqb]. unfold within. cbn [places]. exact (nth_upd_same _ _ _ _ Hi).
Qed.

(** ** Universal identifiers *)
Lemma digit_value : forall c d, digit_of c d -> ascii_to_hex (N.land c 127) = d.
Proof.
  intros c d [Hd Hc].
  assert (G : d = 0 \/ d = 1 \/ d = 2 \/ d = 3 \/ d = 4 \/ d = 5 \/ d = 6 \/ d = 7 \/ d = 8 \/ d = 9 \/ d = 10 \/ d = 11 \/ d = 12 \/ d = 13 \/ d = 14 \/ d = 15) by lia.
  destruct Hc as [-> | ->]; repeat (destruct G as [-> |G]; [reflexivity|]); subst d; reflexivity.
Qed.
Lemma pair_value : forall x y, x < 16 -> y < 16 -> N.lor (N.shiftl x 4 mod 256) y = 16 * x + y.
Proof.
  intros x y Hx Hy.
  assert (G : forall d, d < 16 -> In d (map N.of_nat (seq 0 16))).
  { intros d Hd. apply in_map_iff. exists (N.to_nat d). split; [lia|]. apply in_seq. lia. }
  assert (A : forallb (fun a => forallb (fun b => N.lor (N.shiftl a 4 mod 256) b =? 16 * a + b) (map N.of_nat (seq 0 16))) (map N.of_nat (seq 0 16)) = true) by reflexivity.
  rewrite forallb_forall in A. specialize (A x (G x Hx)). rewrite forallb_forall in A. apply N.eqb_eq. exact (A y (G y Hy)).
Qed.
Lemma read_pair : forall l i a b x y, nth_error l i = Some a -> nth_error l (S i) = Some b -> digit_of a x -> digit_of b y -> read_byte l i = Ok (16 * x + y).
Proof.
  intros l i a b x y Ha Hb Da Db. unfold read_byte. rewrite Ha, Hb, (digit_value a x Da), (digit_value b y Db).
  rewrite pair_value; [reflexivity|exact (proj1 Da)|exact (proj1 Db)].
Qed.
Ltac hexes :=
  repeat match goal with
  | H : hex _ (_ :: _) |- _ => inversion H; subst; clear H
  | H : hex _ [] |- _ => inversion H; subst; clear H
  end.
Lemma hex_list : forall n t b, hex t b -> length b = n ->
  exists ps : list (N * N * N * N), length ps = n /\ t = concat (map (fun p => let '(c, d, _, _) := p in [c; d]) ps) /\
    b = map (fun p => let '(_, _, x, y) := p in 16 * x + y) ps /\ Forall (fun p => let '(c, d, x, y) := p in digit_of c x /\ digit_of d y) ps.
Proof.
  intros n t b H. revert n. induction H as [|c d x y t b Hc Hd H IH]; intros n Hn.
  - exists []. cbn in *. auto.
  - destruct n as [|n]; [discriminate|]. destruct (IH n ltac:(cbn in Hn; lia)) as [ps [H1 [H2 [H3 H4]]]].
    exists ((c, d, x, y) :: ps). cbn. split; [lia|]. split; [rewrite H2; reflexivity|]. split; [rewrite H3; reflexivity|]. constructor; auto.
Qed.
Lemma read_cons : forall l i is b bs, read_byte l i = Ok b -> read_bytes l is = Ok bs -> read_bytes l (i :: is) = Ok (b :: bs).
Proof. intros l i is b bs H1 H2. cbn [read_bytes]. rewrite H1, H2. reflexivity. Qed.
Lemma uuid_read : forall l bytes rest, uuid_text l bytes -> uuid_generate (Some (l ++ rest)) = Ok bytes.
Proof.
  intros l bytes rest (t1 & t2 & t3 & t4 & t5 & b1 & b2 & b3 & b4 & b5 & X1 & X2 & X3 & X4 & X5 & L1 & L2 & L3 & L4 & L5 & -> & ->).
  destruct (hex_list 4 _ _ X1 L1) as [ps1 [K1 [-> [-> F1]]]]. destruct (hex_list 2 _ _ X2 L2) as [ps2 [K2 [-> [-> F2]]]].
  destruct (hex_list 2 _ _ X3 L3) as [ps3 [K3 [-> [-> F3]]]]. destruct (hex_list 2 _ _ X4 L4) as [ps4 [K4 [-> [-> F4]]]].
  destruct (hex_list 6 _ _ X5 L5) as [ps5 [K5 [-> [-> F5]]]]. clear X1 X2 X3 X4 X5 L1 L2 L3 L4 L5.
  repeat (destruct ps1 as [|[[[? ?] ?] ?] ps1]; try discriminate K1; []).
  repeat (destruct ps2 as [|[[[? ?] ?] ?] ps2]; try discriminate K2; []).
  repeat (destruct ps3 as [|[[[? ?] ?] ?] ps3]; try discriminate K3; []).
  repeat (destruct ps4 as [|[[[? ?] ?] ?] ps4]; try discriminate K4; []).
  repeat (destruct ps5 as [|[[[? ?] ?] ?] ps5]; try discriminate K5; []).
  clear K1 K2 K3 K4 K5.
  repeat match goal with H : Forall _ (_ :: _) |- _ => let A := fresh in pose proof (Forall_inv H) as A; apply Forall_inv_tail in H; cbn beta iota in A; destruct A end.
  unfold uuid_generate. cbn [concat map app length Nat.leb firstn].
  repeat (apply read_cons; [eapply read_pair; [reflexivity|reflexivity|eassumption|eassumption]|]). reflexivity.
Qed.

Lemma hex_pair : forall a b x y z bs cs, digit_of a x -> digit_of b y -> z = 16 * x + y -> hex bs cs -> hex (a :: b :: bs) (z :: cs).
Proof. intros a b x y z bs cs Ha Hb -> H. constructor; assumption. Qed.
Lemma uuid_case : uuid_text [48;48;48;49;48;50;48;51;45;48;52;48;53;45;48;54;48;55;45;48;56;48;57;45;48;97;48;66;48;99;48;68;48;101;48;102]
  [0; 1; 2; 3; 4; 5; 6; 7; 8; 9; 10; 11; 12; 13; 14; 15].
Proof.
  assert (D : forall d, d < 16 -> digit_of (if d <? 10 then 48 + d else 87 + d) d) by (intros d H; split; auto).
  assert (U : forall d, d < 16 -> digit_of (if d <? 10 then 48 + d else 55 + d) d) by (intros d H; split; auto).
  exists [48;48;48;49;48;50;48;51], [48;52;48;53], [48;54;48;55], [48;56;48;57], [48;97;48;66;48;99;48;68;48;101;48;102],
    [0;1;2;3], [4;5], [6;7], [8;9], [10;11;12;13;14;15].
  repeat split;
  repeat match goal with
  | |- hex [] [] => constructor
  | |- hex (_ :: _ :: _) (?z :: _) => apply (hex_pair _ _ 0 z); [exact (D 0 ltac:(reflexivity))|first [exact (D z ltac:(reflexivity))|exact (U z ltac:(reflexivity))]|reflexivity|]
  end.
Qed.

(** ** Deadlines *)
Local Open Scope Z_scope.
Lemma deadline_ok : forall fuel now_sec now_nsec ipart k num nanos, (2 <= fuel)%nat ->
  0 <= now_sec -> 0 <= now_nsec < 1000000000 -> 0 <= ipart -> 0 <= k -> 0 <= num < 2 ^ k -> next_to k num nanos ->
  now_sec + ipart + 1 < 2 ^ 63 ->
  exists t, deadline fuel now_sec now_nsec ipart nanos = Ok t /\ valid_time t /\ close_to t now_sec now_nsec ipart k num.
Proof.
  intros fuel ns nn ip k num nanos Hf Hns Hnn Hip Hk Hnum [Hl Hu] Hsum.
  assert (P : 0 < 2 ^ k) by (apply Z.pow_pos_nonneg; lia). set (D := 2 ^ k) in *.
  assert (Hl' : num * 1000000000 < (nanos + 1) * D).
  { pose proof (Z.div_mod (num * 1000000000) D ltac:(lia)). pose proof (Z.mod_pos_bound (num * 1000000000) D P). nia. }
  assert (Hu' : (nanos - 1) * D < num * 1000000000).
  { pose proof (Z.div_mod (- (num * 1000000000)) D ltac:(lia)). pose proof (Z.mod_pos_bound (- (num * 1000000000)) D P). nia. }
  assert (Hn0 : 0 <= nanos) by (pose proof (Z.div_pos (num * 1000000000) D ltac:(lia) P); lia).
  assert (Hn1 : nanos <= 1000000000) by nia.
  unfold deadline, in_long, long_ok.
  assert (E : forall x, 0 <= x -> x < 2 ^ 63 -> (- 2 ^ 63 <=? x) && (x <? 2 ^ 63) = true).
  { intros x H0 H1. apply andb_true_iff. split; [apply Z.leb_le; lia|apply Z.ltb_lt; lia]. }
  rewrite (E ip) by lia. cbn [obind]. rewrite (E (ns + ip)) by lia. cbn [obind]. rewrite (E (nn + nanos)) by (lia || (apply Z.lt_trans with 2000000001; [lia|reflexivity])). cbn [obind].
  destruct fuel as [|[|fuel]]; try lia. cbn [normalise]. destruct (Z.ltb_spec 999999999 (nn + nanos)) as [H|H].
  - unfold in_long, long_ok. rewrite (E (ns + ip + 1)) by lia. cbn [obind]. destruct (Z.ltb_spec 999999999 (nn + nanos - 1000000000)) as [H'|H']; [lia|].
    eexists. split; [reflexivity|]. unfold valid_time, close_to. cbn [fst snd]. fold D. split; [lia|].
    replace (((ns + ip + 1) * 1000000000 + (nn + nanos - 1000000000)) * D - (((ns + ip) * 1000000000 + nn) * D + num * 1000000000)) with (nanos * D - num * 1000000000) by ring.
    apply Z.abs_lt. nia.
  - eexists. split; [reflexivity|]. unfold valid_time, close_to. cbn [fst snd]. fold D. split; [lia|].
    replace (((ns + ip) * 1000000000 + (nn + nanos)) * D - (((ns + ip) * 1000000000 + nn) * D + num * 1000000000)) with (nanos * D - num * 1000000000) by ring.
    apply Z.abs_lt. nia.
Qed.
