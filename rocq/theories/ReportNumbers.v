(** The numbers of the report: numerals read back, and the rounding to four digits. *)
From Coq Require Import QArith Qabs Qpower Lqa.
From Verif Require Import Prelude Helpers Parser Contract ReportSpec Report.
Local Open Scope N_scope.

(** ** Numerals *)
Lemma decimal_go_spec fuel n : n < 10 ^ N.of_nat fuel -> (0 < fuel)%nat ->
  Forall digit (decimal_go fuel n) /\ numeral (decimal_go fuel n) = n /\ (0 < length (decimal_go fuel n))%nat /\ n < 10 ^ N.of_nat (length (decimal_go fuel n)) /\
  (0 < n -> 10 ^ N.of_nat (length (decimal_go fuel n) - 1) <= n).
Proof.
  revert n. induction fuel as [|fuel IH]; intros n Hn Hf; [lia|]. cbn [decimal_go]. destruct (N.ltb_spec n 10) as [H10|H10].
  - split; [constructor; [unfold digit; lia|constructor]|]. split; [unfold numeral; cbn [foldl]; lia|]. cbn. split; [lia|]. split; [done|]. lia.
  - assert (Hpow : 10 ^ N.of_nat (S fuel) = 10 * 10 ^ N.of_nat fuel) by (rewrite Nat2N.inj_succ; apply N.pow_succ_r').
    assert (Hdm : n = 10 * (n / 10) + n mod 10) by (apply N.div_mod'). assert (Hm : n mod 10 < 10) by (apply N.mod_lt; lia).
    assert (Hf' : (0 < fuel)%nat) by (destruct fuel; [cbn in Hn; lia|lia]).
    destruct (IH (n / 10)) as (H1 & H2 & H3 & H4 & H5); [lia|done|].
    set (l := decimal_go fuel (n / 10)) in *. rewrite app_length. cbn [length]. split; [apply Forall_app; split; [done|constructor; [unfold digit; lia|constructor]]|].
    split; [|split; [lia|split]].
    + unfold numeral in *. rewrite foldl_app, H2. cbn [foldl]. lia.
    + replace (N.of_nat (length l + 1)) with (N.succ (N.of_nat (length l))) by lia. rewrite N.pow_succ_r'. lia.
    + intros _. assert (H6 : 10 ^ N.of_nat (length l - 1) <= n / 10) by (apply H5; lia). replace (N.of_nat (length l + 1 - 1)) with (N.succ (N.of_nat (length l - 1))) by lia. rewrite N.pow_succ_r'. lia.
Qed.
Lemma decimal_fuel n : n < 10 ^ N.of_nat (S (N.to_nat (N.size n))).
Proof.
  rewrite Nat2N.inj_succ, N2Nat.id, N.pow_succ_r'. pose proof (N.size_gt n) as H. assert (H2 : 2 ^ N.size n <= 10 ^ N.size n) by (apply N.pow_le_mono_l; lia). lia.
Qed.
Lemma decimal_digits n : Forall digit (decimal n).
Proof. apply decimal_go_spec; [apply decimal_fuel|lia]. Qed.
Lemma numeral_decimal n : numeral (decimal n) = n.
Proof. apply decimal_go_spec; [apply decimal_fuel|lia]. Qed.
Lemma ndigits_pos n : (0 < ndigits n)%nat.
Proof. apply decimal_go_spec; [apply decimal_fuel|lia]. Qed.
Lemma ndigits_upper n : n < 10 ^ N.of_nat (ndigits n).
Proof. apply decimal_go_spec; [apply decimal_fuel|lia]. Qed.
Lemma ndigits_lower n : 0 < n -> 10 ^ N.of_nat (ndigits n) <= 10 * n.
Proof.
  intros Hn. assert (H : 10 ^ N.of_nat (ndigits n - 1) <= n) by (apply decimal_go_spec; [apply decimal_fuel|lia|done]).
  pose proof (ndigits_pos n). replace (N.of_nat (ndigits n)) with (N.succ (N.of_nat (ndigits n - 1))) by lia. rewrite N.pow_succ_r'. lia.
Qed.
Lemma numeral_bound l : Forall digit l -> numeral l < 10 ^ N.of_nat (length l).
Proof.
  induction l as [|x l IH] using rev_ind; [done|]. intros [H1 H2]%Forall_app. apply Forall_cons in H2 as [H2 _]. specialize (IH H1). unfold numeral in *. rewrite foldl_app, app_length. cbn [foldl length].
  replace (N.of_nat (length l + 1)) with (N.succ (N.of_nat (length l))) by lia. rewrite N.pow_succ_r'. unfold digit in H2. lia.
Qed.
Lemma decimal_writes (n : nat) : writes (decimal (N.of_nat n)) n.
Proof.
  pose proof (ndigits_pos (N.of_nat n)) as Hp. unfold ndigits in Hp. split; [intros E; rewrite E in Hp; cbn in Hp; lia|]. split; [apply decimal_digits|]. split; [apply numeral_decimal|]. intros Hh.
  destruct (decide (n = 0%nat)) as [->|Hn]; [by vm_compute|]. pose proof (ndigits_lower (N.of_nat n) ltac:(lia)) as Hlo. unfold ndigits in Hlo.
  pose proof (decimal_digits (N.of_nat n)) as Hd. pose proof (numeral_decimal (N.of_nat n)) as Hv. destruct (decimal (N.of_nat n)) as [|x l]; [done|]. cbn in Hh. injection Hh as ->.
  apply Forall_cons in Hd as [_ Hd]. apply numeral_bound in Hd. change (numeral (48 :: l)) with (numeral l) in Hv. cbn [length] in Hlo. rewrite Nat2N.inj_succ, N.pow_succ_r' in Hlo. lia.
Qed.
Lemma ndigits_exact n k : 10 ^ N.of_nat k <= n < 10 ^ N.of_nat (S k) -> ndigits n = S k.
Proof.
  intros [H1 H2]. assert (Hn : 0 < n) by (pose proof (N.pow_nonzero 10 (N.of_nat k)); lia). pose proof (ndigits_upper n) as H3. pose proof (ndigits_lower n Hn) as H4.
  assert (H5 : N.of_nat k < N.of_nat (ndigits n)) by (apply (N.pow_lt_mono_r_iff 10); lia).
  assert (H6 : 10 ^ N.of_nat (ndigits n) < 10 ^ N.of_nat (S (S k))) by (rewrite (Nat2N.inj_succ (S k)), N.pow_succ_r'; lia).
  apply N.pow_lt_mono_r_iff in H6; lia.
Qed.

(** ** Rounding *)
Lemma rhe_near a b : 0 < b -> 2 * (round_half_even a b * b) <= 2 * a + b /\ 2 * a <= 2 * (round_half_even a b * b) + b.
Proof.
  intros Hb. unfold round_half_even. assert (Hdm : a = b * (a / b) + a mod b) by (apply N.div_mod'; lia). assert (Hm : a mod b < b) by (apply N.mod_lt; lia).
  set (q := a / b) in *. set (r := a mod b) in *. clearbody q r.
  destruct (N.ltb_spec (2 * r) b); [nia|]. destruct (N.ltb_spec b (2 * r)); [nia|]. destruct (N.even q); nia.
Qed.
Lemma dec_round_int places c k : (0 < places)%nat -> 0 < c -> k = ndigits c ->
  let c' := round_half_even (c * 10 ^ N.of_nat places) (10 ^ N.of_nat k) in
  10 ^ N.of_nat (places - 1) <= c' <= 10 ^ N.of_nat places /\ 2 * (c' * 10 ^ N.of_nat k) <= 2 * (c * 10 ^ N.of_nat places) + 10 * c /\ 2 * (c * 10 ^ N.of_nat places) <= 2 * (c' * 10 ^ N.of_nat k) + 10 * c.
Proof.
  intros Hp Hc -> c'. pose proof (ndigits_upper c) as H1. pose proof (ndigits_lower c Hc) as H2. set (b := 10 ^ N.of_nat (ndigits c)) in *.
  assert (Hb : 0 < b) by lia. destruct (rhe_near (c * 10 ^ N.of_nat places) b Hb) as [H3 H4]. fold c' in H3, H4.
  assert (Hpow : 10 ^ N.of_nat places = 10 * 10 ^ N.of_nat (places - 1)) by (replace (N.of_nat places) with (N.succ (N.of_nat (places - 1))) by lia; apply N.pow_succ_r').
  set (t := 10 ^ N.of_nat (places - 1)) in *. rewrite Hpow in *. clearbody c' b. assert (Ht : 0 < t) by (subst t; apply N.neq_0_lt_0, N.pow_nonzero; lia). clearbody t. clear Hpow.
  split; [split|split; lia].
  - (* 10 c t >= b t, so 2 c' b + b >= 2 b t *)
    assert (H5 : b * t <= 10 * c * t) by nia. assert (H6 : 2 * (b * t) <= 2 * (c' * b) + b) by nia. nia.
  - assert (H5 : 10 * c * t < 10 * (b * t)) by nia. assert (H6 : 2 * (c' * b) < 20 * (b * t) + b) by nia. nia.
Qed.

(** ** Values *)
Local Open Scope Q_scope.
Definition ten : Q := 10 # 1.
Definition dval (x : dec) : Q := inject_Z (Z.of_N (dc_coef x)) * ten ^ dc_exp x.
Lemma ten_pos z : 0 < ten ^ z.
Proof. apply Qpower_0_lt. done. Qed.
Lemma ten_N k : ten ^ Z.of_nat k == inject_Z (Z.of_N (10 ^ N.of_nat k)).
Proof.
  rewrite N2Z.inj_pow, nat_N_Z. symmetry. apply (Zpower_Qpower 10 (Z.of_nat k)). lia.
Qed.
Lemma ten_plus a b : ten ^ (a + b) == ten ^ a * ten ^ b.
Proof. apply Qpower_plus. done. Qed.
Lemma injZ_le (a b : N) : (a <= b)%N -> inject_Z (Z.of_N a) <= inject_Z (Z.of_N b).
Proof. intros H. rewrite <-Zle_Qle. lia. Qed.
Lemma injZ_mult (a b : N) : inject_Z (Z.of_N (a * b)) == inject_Z (Z.of_N a) * inject_Z (Z.of_N b).
Proof. rewrite N2Z.inj_mul, inject_Z_mult. reflexivity. Qed.
Lemma injZ_plus (a b : N) : inject_Z (Z.of_N (a + b)) == inject_Z (Z.of_N a) + inject_Z (Z.of_N b).
Proof. rewrite N2Z.inj_add, inject_Z_plus. reflexivity. Qed.
Definition near (u v r : Q) : Prop := v - r * v <= u /\ u <= v + r * v.

Lemma dec_round_near places x : (0 < places)%nat -> (0 < dc_coef x)%N -> let y := dec_round places x in
  (10 ^ N.of_nat (places - 1) <= dc_coef y < 10 ^ N.of_nat places)%N /\ near (dval y) (dval x) (5 * ten ^ (- Z.of_nat places)).
Proof.
  intros Hp Hc y. destruct x as [c e]. cbn [dc_coef] in Hc. unfold y, dec_round. cbn [dc_coef dc_exp]. clear y.
  destruct (dec_round_int places c (ndigits c) Hp Hc eq_refl) as ((Hlo & Hhi) & H1 & H2). set (k := ndigits c) in *.
  set (c' := round_half_even (c * 10 ^ N.of_nat places) (10 ^ N.of_nat k)) in *. clearbody c'.
  assert (Hnear : near (dval (Dec c' (e + Z.of_nat k - Z.of_nat places))) (dval (Dec c e)) (5 * ten ^ (- Z.of_nat places))).
  { apply injZ_le in H1, H2. rewrite !injZ_plus, !injZ_mult, <-!ten_N in H1, H2. unfold near, dval. cbn [dc_coef dc_exp].
    replace (e + Z.of_nat k - Z.of_nat places)%Z with (Z.of_nat k + (e + - Z.of_nat places))%Z by lia. rewrite !ten_plus.
    assert (Hinv : ten ^ Z.of_nat places * ten ^ (- Z.of_nat places) == 1) by (rewrite <-ten_plus, Z.add_opp_diag_r; reflexivity).
    pose proof (ten_pos e) as He. pose proof (ten_pos (- Z.of_nat places)) as Hi. pose proof (ten_pos (Z.of_nat places)) as HP.
    change (inject_Z (Z.of_N 2)) with 2 in *. change (inject_Z (Z.of_N 10)) with 10 in *.
    set (C := inject_Z (Z.of_N c)) in *. set (C' := inject_Z (Z.of_N c')) in *. set (T := ten ^ e) in *. set (I := ten ^ (- Z.of_nat places)) in *. set (P := ten ^ Z.of_nat places) in *. set (Q := ten ^ Z.of_nat k) in *.
    clearbody C C' T I P Q. assert (HTI : 0 < T * I) by (by apply Qmult_lt_0_compat).
    assert (E1 : C * T == C * P * (T * I)) by (setoid_replace (C * P * (T * I)) with (C * T * (P * I)) by ring; rewrite Hinv; ring).
    assert (H1' : C' * Q <= C * P + 5 * C) by lra. assert (H2' : C * P <= C' * Q + 5 * C) by lra.
    apply (Qmult_le_compat_r _ _ (T * I)) in H1', H2'; [|lra|lra]. split; [setoid_replace (C * T - 5 * I * (C * T)) with (C * P * (T * I) - 5 * C * (T * I)) by (rewrite E1 at 1; ring)|setoid_replace (C * T + 5 * I * (C * T)) with (C * P * (T * I) + 5 * C * (T * I)) by (rewrite E1 at 1; ring)].
    - setoid_replace (C' * (Q * (T * I))) with (C' * Q * (T * I)) by ring. setoid_replace ((C' * Q + 5 * C) * (T * I)) with (C' * Q * (T * I) + 5 * C * (T * I)) in H2' by ring. lra.
    - setoid_replace (C' * (Q * (T * I))) with (C' * Q * (T * I)) by ring. setoid_replace ((C * P + 5 * C) * (T * I)) with (C * P * (T * I) + 5 * C * (T * I)) in H1' by ring. lra. }
  destruct (N.eqb_spec c' (10 ^ N.of_nat places)) as [->|Hne].
  - cbn [dc_coef]. assert (Hpow : (10 ^ N.of_nat places = 10 * 10 ^ N.of_nat (places - 1))%N) by (replace (N.of_nat places) with (N.succ (N.of_nat (places - 1))) by lia; apply N.pow_succ_r').
    assert (Ht : (0 < 10 ^ N.of_nat (places - 1))%N) by (apply N.neq_0_lt_0, N.pow_nonzero; lia). split; [lia|].
    assert (E : dval (Dec (10 ^ N.of_nat (places - 1)) (e + Z.of_nat k - Z.of_nat places + 1)) == dval (Dec (10 ^ N.of_nat places) (e + Z.of_nat k - Z.of_nat places))).
    { unfold dval. cbn [dc_coef dc_exp]. rewrite Hpow, injZ_mult. rewrite (ten_plus _ 1). change (ten ^ 1) with ten. change (inject_Z (Z.of_N 10)) with ten. ring. }
    unfold near in *. rewrite E. exact Hnear.
  - cbn [dc_coef]. split; [lia|done].
Qed.

Lemma near_trans u v w r s : 0 <= w -> 0 <= r -> 0 <= s -> r <= 1 -> near v w s -> near u v r -> near u w (r + s + r * s).
Proof.
  intros Hw Hr Hs Hr1 [H1 H2] [H3 H4]. unfold near.
  assert (H5 : r * v <= r * (w + s * w)) by (rewrite !(Qmult_comm r); apply Qmult_le_compat_r; lra).
  split; [|lra]. assert (H6 : (1 - r) * (w - s * w) <= (1 - r) * v) by (rewrite !(Qmult_comm (1 - r)); apply Qmult_le_compat_r; lra).
  assert (H7 : 0 <= r * s * w) by (apply Qmult_le_0_compat; [by apply Qmult_le_0_compat|done]). lra.
Qed.
Lemma near_weak u v r s : 0 <= v -> r <= s -> near u v r -> near u v s.
Proof. intros Hv Hrs [H1 H2]. assert (H : r * v <= s * v) by (by apply Qmult_le_compat_r). unfold near. lra. Qed.

(** Division in 28 digits. *)
Lemma dec_div_near (a b : N) : (0 < a)%N -> (0 < b)%N -> (0 < dc_coef (dec_div (Dec a 0) (Dec b 0)))%N /\
  near (dval (dec_div (Dec a 0) (Dec b 0))) (inject_Z (Z.of_N a) / inject_Z (Z.of_N b)) (10 * ten ^ (-28)).
Proof.
  intros Ha Hb. unfold dec_div. cbn [dc_coef dc_exp]. destruct (N.eqb_spec a 0) as [->|_]; [lia|].
  set (s := (Z.of_nat (ndigits b) - Z.of_nat (ndigits a) + 29)%Z). set (A := (a * 10 ^ Z.to_N s)%N). set (B := (b * 10 ^ Z.to_N (- s))%N).
  set (q := (A / B)%N). set (q' := if (A mod B =? 0)%N then q else if (q mod 5 =? 0)%N then (q + 1)%N else q).
  assert (HB : (0 < B)%N) by (unfold B; apply N.mul_pos_pos; [done|]; apply N.neq_0_lt_0, N.pow_nonzero; lia).
  assert (Hdm : (A = B * q + A mod B)%N) by (apply N.div_mod'; lia). assert (Hm : (A mod B < B)%N) by (apply N.mod_lt; lia).
  assert (Hq' : (q' * B <= A + B /\ A <= q' * B + B)%N) by (clear -Hdm Hm; unfold q'; clearbody q; set (R := (A mod B)%N) in *; clearbody R A B; destruct (N.eqb_spec R 0); [nia|]; destruct (q mod 5 =? 0)%N; nia).
  (* the quotient has at least 28 digits *)
  assert (Hbig : (10 ^ 28 * B <= A)%N).
  { pose proof (ndigits_lower a Ha) as H1. pose proof (ndigits_upper b) as H2. unfold A, B.
    assert (Hpow : (10 ^ 28 * 10 ^ N.of_nat (ndigits b) * 10 ^ Z.to_N (- s) * 10 = 10 ^ N.of_nat (ndigits a) * 10 ^ Z.to_N s)%N).
    { change 10%N with (10 ^ 1)%N at 4. rewrite <-!N.pow_add_r. f_equal. unfold s. lia. }
    set (G := (10 ^ 28)%N) in *. set (U := (10 ^ Z.to_N (- s))%N) in *. set (V := (10 ^ Z.to_N s)%N) in *. set (na := (10 ^ N.of_nat (ndigits a))%N) in *. set (nb := (10 ^ N.of_nat (ndigits b))%N) in *.
    clearbody G U V na nb. clear -Hpow H1 H2.
    assert (H3 : (b * (G * U) <= nb * (G * U))%N) by (apply N.mul_le_mono_r; lia). assert (H4 : (na * V <= 10 * a * V)%N) by (by apply N.mul_le_mono_r).
    assert (E1 : (G * (b * U) = b * (G * U))%N) by ring. assert (E2 : (G * nb * U * 10 = 10 * (nb * (G * U)))%N) by ring. assert (E3 : (10 * a * V = 10 * (a * V))%N) by ring. lia. }
  assert (Hq0 : (0 < q')%N) by (destruct (N.eq_dec q' 0) as [Hz|]; [|lia]; rewrite Hz in Hq'; assert (10 ^ 28 * B <= B)%N by lia; set (G := (10 ^ 28)%N) in *; assert (1 < G)%N by (by vm_compute); clearbody G; nia).
  assert (E : inject_Z (Z.of_N a) / inject_Z (Z.of_N b) == inject_Z (Z.of_N A) / inject_Z (Z.of_N B) * ten ^ (- s)).
  { assert (Hb0 : ~ inject_Z (Z.of_N b) == 0) by (change 0 with (inject_Z 0); rewrite inject_Z_injective; lia).
    unfold A, B. rewrite !injZ_mult. replace (Z.to_N s) with (N.of_nat (Z.to_nat s)) by lia. replace (Z.to_N (- s)) with (N.of_nat (Z.to_nat (- s))) by lia. rewrite <-!ten_N.
    assert (Es : ten ^ Z.of_nat (Z.to_nat s) * ten ^ (- s) == ten ^ Z.of_nat (Z.to_nat (- s))) by (rewrite <-ten_plus; replace (Z.of_nat (Z.to_nat s) + - s)%Z with (Z.of_nat (Z.to_nat (- s))) by lia; reflexivity).
    pose proof (ten_pos (Z.of_nat (Z.to_nat (- s)))) as Ht. set (U := ten ^ Z.of_nat (Z.to_nat (- s))) in *. set (V := ten ^ Z.of_nat (Z.to_nat s)) in *. set (S := ten ^ (- s)) in *. set (a' := inject_Z (Z.of_N a)) in *. set (b' := inject_Z (Z.of_N b)) in *.
    clearbody U V S a' b'. assert (HU : ~ U == 0) by lra. setoid_replace (a' * V / (b' * U) * S) with (a' * (V * S) / (b' * U)) by (field; by split). rewrite Es. field. by split. }
  assert (Hnear1 : near (dval (Dec q' (0 - 0 - s))) (inject_Z (Z.of_N a) / inject_Z (Z.of_N b)) (ten ^ (-28))).
  { destruct Hq' as [H1 H2]. apply injZ_le in H1, H2, Hbig. rewrite !injZ_plus, ?injZ_mult in H1, H2. rewrite injZ_mult in Hbig. change (inject_Z (Z.of_N (10 ^ 28))) with (ten ^ 28) in Hbig.
    unfold near, dval. cbn [dc_coef dc_exp]. replace (0 - 0 - s)%Z with (- s)%Z by lia. rewrite E. pose proof (ten_pos (- s)) as Ht.
    assert (HBq : 0 < inject_Z (Z.of_N B)) by (change 0 with (inject_Z 0); rewrite <-Zlt_Qlt; lia).
    set (T := ten ^ (- s)) in *. set (BB := inject_Z (Z.of_N B)) in *. set (AA := inject_Z (Z.of_N A)) in *. set (Q := inject_Z (Z.of_N q')) in *. clearbody T BB AA Q.
    assert (HA : AA == AA / BB * BB) by (field; lra). set (X := AA / BB) in *. clearbody X.
    assert (H3 : Q <= X + 1) by (apply (Qmult_le_r _ _ BB HBq); lra). assert (H4 : X <= Q + 1) by (apply (Qmult_le_r _ _ BB HBq); lra). assert (H5 : ten ^ 28 <= X) by (apply (Qmult_le_r _ _ BB HBq); lra).
    assert (H6 : 1 <= ten ^ (-28) * X).
    { setoid_replace 1 with (ten ^ (-28) * ten ^ 28) by (vm_compute; reflexivity). rewrite !(Qmult_comm (ten ^ (-28))). apply Qmult_le_compat_r; [done|]. apply Qlt_le_weak, ten_pos. }
    set (R := ten ^ (-28)) in *. clearbody R. split.
    - setoid_replace (X * T - R * (X * T)) with ((X - R * X) * T) by ring. apply Qmult_le_compat_r; lra.
    - setoid_replace (X * T + R * (X * T)) with ((X + R * X) * T) by ring. apply Qmult_le_compat_r; lra. }
  destruct (dec_round_near 28 (Dec q' (0 - 0 - s))) as [Hlo Hnear2]; [lia|done|]. split; [cbn [Nat.sub] in Hlo; assert (0 < 10 ^ N.of_nat 27)%N by (by vm_compute); lia|].
  assert (Hpos : 0 <= inject_Z (Z.of_N a) / inject_Z (Z.of_N b)).
  { apply Qle_shift_div_l; [change 0 with (inject_Z 0); rewrite <-Zlt_Qlt; lia|]. rewrite Qmult_0_l. change 0 with (inject_Z 0). rewrite <-Zle_Qle. lia. }
  eapply near_weak; [done| |eapply near_trans; [done| | | |exact Hnear1|exact Hnear2]]; vm_compute; done.
Qed.

(** ** What is printed *)
Lemma sign_reads a b c d x : Forall digit [a; b; c; d] -> reads (a :: lit "." ++ [b; c; d] ++ lit "e" ++ (if (x <? 0)%Z then lit "-" else lit "+") ++ decimal (Z.to_N (Z.abs x))) (numeral [a; b; c; d]) x.
Proof.
  intros Hd. exists a, b, c, d. pose proof (decimal_digits (Z.to_N (Z.abs x))) as Hx. pose proof (ndigits_pos (Z.to_N (Z.abs x))) as Hne. unfold ndigits in Hne.
  assert (Hn : decimal (Z.to_N (Z.abs x)) <> []) by (intros E; rewrite E in Hne; cbn in Hne; lia). pose proof (numeral_decimal (Z.to_N (Z.abs x))) as Hv.
  set (ds := decimal (Z.to_N (Z.abs x))) in *. clearbody ds.
  destruct (Z.ltb_spec x 0); [exists 45%N, ds|exists 43%N, ds]; (split; [reflexivity|]); split; try done; split; try done; split; try done; split; try done; [right|left]; (split; [done|]); rewrite Hv; lia.
Qed.
Lemma sci_reads m x : (1000 <= m < 10000)%N -> reads (sci_show m x) m x.
Proof.
  intros Hm. assert (Hl : ndigits m = 4%nat) by (apply (ndigits_exact m 3); exact Hm). pose proof (decimal_digits m) as Hd. pose proof (numeral_decimal m) as Hv.
  unfold sci_show. unfold ndigits in Hl. destruct (decimal m) as [|a [|b [|c [|d [|]]]]]; try discriminate Hl. rewrite <-Hv. by apply sign_reads.
Qed.
Lemma format_about x v r : (0 <= v)%Q -> 0 <= r -> r <= 1 # 100 -> ((0 < dc_coef x)%N -> near (dval x) v r) -> (dc_coef x = 0%N -> v == 0) -> about v ((1 # 2000) + r + (1 # 2000) * r) (format_3e x).
Proof.
  intros Hv Hr Hr1 Hx Hz. unfold format_3e. destruct (N.eqb_spec (dc_coef x) 0) as [E|E].
  - exists 0%N, (dc_exp x + 3)%Z. split; [|unfold shown; change (inject_Z (Z.of_N 0)) with 0; specialize (Hz E); set (T := (10 # 1) ^ _); assert (HT : 0 / 1000 * T == 0) by field; rewrite HT, Hz; split; lra].
    apply (sign_reads 48 48 48 48 (dc_exp x + 3)). repeat constructor; unfold digit; lia.
  - assert (Hc : (0 < dc_coef x)%N) by lia. destruct (dec_round_near 4 x) as [Hm Hn]; [lia|done|]. set (y := dec_round 4 x) in *.
    exists (dc_coef y), (dc_exp y + 3)%Z. split; [apply sci_reads; exact Hm|].
    assert (Es : shown (dc_coef y) (dc_exp y + 3) == dval y).
    { unfold shown, dval. fold ten. rewrite (ten_plus _ 3). change (ten ^ 3) with (1000 # 1). field. }
    rewrite Es. refine (near_trans _ _ _ (1 # 2000) r Hv _ Hr _ (Hx Hc) _); [done|done|].
    eapply near_weak; [| |exact Hn]; [|by vm_compute]. unfold dval. apply Qmult_le_0_compat; [change 0 with (inject_Z 0); rewrite <-Zle_Qle; lia|apply Qlt_le_weak, ten_pos].
Qed.
Lemma about_weak v r s l : 0 <= v -> r <= s -> about v r l -> about v s l.
Proof. intros Hv Hrs (m & x & Hr & H1 & H2). exists m, x. split; [done|]. apply (near_weak _ _ r s Hv Hrs). by split. Qed.
(** An integer is printed with an error of at most 1/2000 of it; the quotient of two integers with at most 1/1999. *)
Lemma int_about n : about (inject_Z (Z.of_nat n)) (1 # 2000) (format_3e (dec_int n)).
Proof.
  assert (Hv : 0 <= inject_Z (Z.of_nat n)) by (change 0 with (inject_Z 0); rewrite <-Zle_Qle; lia).
  apply (about_weak _ ((1 # 2000) + 0 + (1 # 2000) * 0)); [done|done|]. apply format_about; [done|done|done| |].
  - intros _. unfold dval, dec_int. cbn [dc_coef dc_exp]. rewrite nat_N_Z. unfold near. change (ten ^ 0) with 1. lra.
  - cbn [dec_int dc_coef]. intros Hn. assert (n = 0%nat) as -> by lia. reflexivity.
Qed.
Lemma ratio_about a b : (0 < b)%nat -> about (inject_Z (Z.of_nat a) / inject_Z (Z.of_nat b)) (1 # 1999) (format_3e (dec_div (dec_int a) (dec_int b))).
Proof.
  intros Hb. assert (Hb' : 0 < inject_Z (Z.of_nat b)) by (change 0 with (inject_Z 0); rewrite <-Zlt_Qlt; lia).
  assert (Hv : 0 <= inject_Z (Z.of_nat a) / inject_Z (Z.of_nat b)) by (apply Qle_shift_div_l; [done|]; rewrite Qmult_0_l; change 0 with (inject_Z 0); rewrite <-Zle_Qle; lia).
  apply (about_weak _ ((1 # 2000) + 10 * ten ^ (-28) + (1 # 2000) * (10 * ten ^ (-28)))); [done|by vm_compute|]. apply format_about; [done|by vm_compute|by vm_compute| |].
  - intros Hc. destruct a as [|a]; [done|]. destruct (dec_div_near (N.of_nat (S a)) (N.of_nat b)) as [_ H]; [lia|lia|]. rewrite !nat_N_Z in H. exact H.
  - destruct a as [|a]; [intros _; change (inject_Z (Z.of_nat 0)) with 0; field; lra|]. intros Hc. destruct (dec_div_near (N.of_nat (S a)) (N.of_nat b)) as [H _]; [lia|lia|]. unfold dec_int in Hc. lia.
Qed.
