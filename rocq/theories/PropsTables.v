(** Properties C40, C57 and C68, continued: the names of the path functions, the modules functions are taken from, ties in the rounding; statements, each with a concrete instance. *)
From Coq Require Import QArith Qpower Lqa.
From Verif Require Import Prelude Helpers Contract FinderFacts Random RandomSpec Dispatch ReportSpec Report ReportNumbers PropsRandom PropsDispatch PropsNames.
Local Open Scope nat_scope.

(** ** C40 *)
(** Exactly the thirteen documented names are known after the import, in any mixture of small and capital letters; any other is a KeyError. *)
Theorem C40_known (E : env) (n : str) :
  ((exists m, m ∈ all_names /\ spelt_like n m) -> exists f, get_path_fn (all_options E) n = Ok f) /\
  (~ (exists m, m ∈ all_names /\ spelt_like n m) -> get_path_fn (all_options E) n = Err KeyError).
Proof.
  assert (Hlow : forall m, m ∈ all_names -> lower m = m) by (apply Forall_forall, (bool_decide_unpack _); by vm_compute).
  assert (Hiff : (exists m, m ∈ all_names /\ spelt_like n m) <-> lower n ∈ all_names).
  { split.
    - intros (m & Hm & Hs). apply lower_spelt in Hs. by rewrite Hs, (Hlow m Hm).
    - intros Hn. exists (lower n). split; [done|]. apply lower_spelt. by rewrite (Hlow _ Hn). }
  rewrite Hiff. clear Hiff. unfold get_path_fn. set (m := lower n). clearbody m. clear n Hlow. unfold all_options. rewrite !lookup_set. unfold all_names, safe_names. split.
  - intros Hm. cbn [lookup_fn options]. repeat (destruct (decide (_ = m)); [by eexists|]). exfalso.
    repeat (apply elem_of_cons in Hm as [Hm|Hm]; [by subst|]). by apply elem_of_nil in Hm.
  - intros Hm. rewrite !elem_of_cons in Hm. cbn [lookup_fn options]. repeat (rewrite decide_False by (intros <-; apply Hm; tauto)). done.
Qed.
Print Assumptions C40_known.
Example C40_known_instance : get_path_fn (all_options (env0 3)) (lit "Greedy2") = Err KeyError /\ ~ (exists m, m ∈ all_names /\ spelt_like (lit "Greedy2") m) /\
  exists m, m ∈ all_names /\ spelt_like (lit "Auto-HQ") m.
Proof.
  split; [by vm_compute|]. split.
  - intros (m & Hm & Hs). apply lower_spelt in Hs. assert (H : Forall (fun m => lower (lit "Greedy2") <> lower m) all_names) by (apply (bool_decide_unpack _); by vm_compute).
    rewrite Forall_forall in H. by apply (H m).
  - exists (lit "auto-hq"). split; [left|]. apply lower_spelt. by vm_compute.
Qed.

(** ** C57 *)
(** The module whose functions a backend name stands for. *)
Definition home_module (b : str) : str :=
  if decide (b = lit "dask") then lit "dask.array" else if decide (b = lit "theano") then lit "theano.tensor" else if decide (b = lit "mars") then lit "mars.tensor"
  else if decide (b = lit "torch") then lit "opt_einsum.backends.torch" else if decide (b = lit "autograd") then lit "autograd.numpy"
  else if decide (b = lit "jax" \/ b = lit "jaxlib") then lit "jax.numpy" else b.
Theorem C57_modules (F C : Type) `{Countable C} (W : world F C) (dflt : str -> option F) (k : caches F C) (before : list (call F C)) (f b : str) :
  dflt (lit "einsum") = None -> dflt (lit "tensordot") = None -> start W = Ok k -> Forall (uniform dflt) before -> b <> lit "object" ->
  last (do_calls W k (before ++ [CGet f b (dflt f)])).1 = Some (AFunc
    match w_module W (home_module b) with
    | None => Err ImportError
    | Some lib => match lib f, dflt f with Some v, _ => Ok v | None, Some g => Ok g | None, None => Err AttributeError end
    end).
Proof.
  intros H1 H2 Hk Hu Hb. rewrite (C57_history_partial F C W dflt k); try done.
  2: { apply Forall_app. split; [done|]. by repeat constructor. }
  rewrite fmap_app. cbn [fmap list_fmap]. rewrite last_snoc. cbn [meaning]. unfold stands_for. rewrite (decide_False (P := b = lit "object" /\ f = lit "einsum")) by tauto.
  rewrite decide_False by tauto. unfold attribute. replace (alias b) with (home_module b); [done|].
  unfold home_module, alias, aliases. cbn [lookup_fn].
  destruct (decide (b = lit "dask")) as [E1|E1]; [subst; by vm_compute|]. destruct (decide (b = lit "theano")) as [E2|E2]; [subst; by vm_compute|].
  destruct (decide (b = lit "mars")) as [E3|E3]; [subst; by vm_compute|]. destruct (decide (b = lit "torch")) as [E4|E4]; [subst; by vm_compute|].
  destruct (decide (b = lit "autograd")) as [E5|E5]; [subst; by vm_compute|]. destruct (decide (b = lit "jax" \/ b = lit "jaxlib")) as [[E6|E6]|E6]; [subst; by vm_compute..|].
  repeat (match goal with |- context [decide (?a = b)] => rewrite (decide_False (P := a = b)) by (intros Hx; symmetry in Hx; tauto) end). done.
Qed.
Print Assumptions C57_modules.
Example C57_modules_instance : home_module (lit "torch") = lit "opt_einsum.backends.torch" /\ home_module (lit "cupy") = lit "cupy" /\
  start world0 = Ok caches0 /\ (do_calls world0 caches0 [CEinsum (lit "foo"); CGet (lit "tensordot") (lit "torch") None]).1 !! 1 = Some (AFunc (Ok 6)).
Proof. repeat split; by vm_compute. Qed.

(** ** C68 *)
Lemma rhe_even (a b : N) : (0 < b)%N -> (2 * a = 2 * (round_half_even a b * b) + b \/ 2 * (round_half_even a b * b) = 2 * a + b)%N -> N.even (round_half_even a b) = true.
Proof.
  intros Hb. unfold round_half_even. assert (Hdm : (a = b * (a / b) + a mod b)%N) by (apply N.div_mod'; lia). assert (Hm : (a mod b < b)%N) by (apply N.mod_lt; lia).
  set (q := (a / b)%N) in *. set (r := (a mod b)%N) in *. clearbody q r.
  destruct (N.ltb_spec (2 * r) b); [nia|]. destruct (N.ltb_spec b (2 * r)); [nia|]. destruct (N.even q) eqn:Hq; [by intros _|]. intros _.
  rewrite N.even_add, Hq. done.
Qed.
Local Open Scope Q_scope.
(** Rounding to a number of digits: the result is a multiple of the unit of the last digit kept, at most half a unit away, and an even multiple if exactly half a unit away. *)
Theorem C68_half_even (places : nat) (x : dec) : (0 < places)%nat -> (0 < dc_coef x)%N ->
  exists (c : N) (u : Z), let v := inject_Z (Z.of_N c) * ten ^ u in
    dval (dec_round places x) == v /\ ten ^ Z.of_nat (places - 1) * ten ^ u <= dval x /\ dval x < ten ^ Z.of_nat places * ten ^ u /\
    2 * dval x <= 2 * v + ten ^ u /\ 2 * v <= 2 * dval x + ten ^ u /\
    (2 * dval x == 2 * v + ten ^ u \/ 2 * v == 2 * dval x + ten ^ u -> N.even c = true).
Proof.
  intros Hp Hc. destruct x as [c e]. cbn [dc_coef] in Hc. set (k := ndigits c). set (c' := round_half_even (c * 10 ^ N.of_nat places) (10 ^ N.of_nat k)).
  exists c', (e + Z.of_nat k - Z.of_nat places)%Z. set (u := (e + Z.of_nat k - Z.of_nat places)%Z). set (v := inject_Z (Z.of_N c') * ten ^ u). cbv zeta.
  assert (Hb : (0 < 10 ^ N.of_nat k)%N) by (apply N.neq_0_lt_0, N.pow_nonzero; lia).
  destruct (rhe_near (c * 10 ^ N.of_nat places) (10 ^ N.of_nat k) Hb) as [H1 H2]. fold c' in H1, H2.
  pose proof (rhe_even (c * 10 ^ N.of_nat places) (10 ^ N.of_nat k) Hb) as H3. fold c' in H3.
  pose proof (ndigits_upper c) as Hup. pose proof (ndigits_lower c Hc) as Hlo. fold k in Hup, Hlo.
  set (S := ten ^ (e - Z.of_nat places)). assert (HS : 0 < S) by apply ten_pos.
  assert (Eu : ten ^ u == inject_Z (Z.of_N (10 ^ N.of_nat k)) * S).
  { unfold u, S. rewrite <- ten_N, <- ten_plus. replace (Z.of_nat k + (e - Z.of_nat places))%Z with (e + Z.of_nat k - Z.of_nat places)%Z by lia. reflexivity. }
  assert (Ex : dval (Dec c e) == inject_Z (Z.of_N (c * 10 ^ N.of_nat places)) * S).
  { unfold dval, S. cbn [dc_coef dc_exp]. rewrite injZ_mult, <- ten_N, <- Qmult_assoc, <- ten_plus. replace (Z.of_nat places + (e - Z.of_nat places))%Z with e by lia. reflexivity. }
  assert (Ev : v == inject_Z (Z.of_N (c' * 10 ^ N.of_nat k)) * S) by (unfold v; rewrite Eu, injZ_mult; ring).
  split.
  { unfold dec_round. cbn [dc_coef dc_exp]. fold k. fold c'. fold u. destruct (N.eqb_spec c' (10 ^ N.of_nat places)) as [Hcc|Hcc]; [|reflexivity].
    unfold v. rewrite Hcc. unfold dval. cbn [dc_coef dc_exp]. rewrite (ten_plus u 1). change (ten ^ 1) with ten.
    assert (Hpow : (10 ^ N.of_nat places = 10 * 10 ^ N.of_nat (places - 1))%N) by (replace (N.of_nat places) with (N.succ (N.of_nat (places - 1))) by lia; apply N.pow_succ_r').
    rewrite Hpow, injZ_mult. change (inject_Z (Z.of_N 10)) with ten. ring. }
  assert (Hpow : (10 ^ N.of_nat places = 10 * 10 ^ N.of_nat (places - 1))%N) by (replace (N.of_nat places) with (N.succ (N.of_nat (places - 1))) by lia; apply N.pow_succ_r').
  assert (HP : (0 < 10 ^ N.of_nat (places - 1))%N) by (apply N.neq_0_lt_0, N.pow_nonzero; lia).
  assert (Hscale : forall a b : N, (a <= b)%N -> inject_Z (Z.of_N a) * S <= inject_Z (Z.of_N b) * S) by (intros a b Hab; apply Qmult_le_compat_r; [by apply injZ_le|lra]).
  assert (Hscale2 : forall a b : N, inject_Z (Z.of_N a) * S == inject_Z (Z.of_N b) * S -> a = b).
  { intros a b Hab. apply Qmult_inj_r in Hab; [|lra]. unfold inject_Z, Qeq in Hab. cbn in Hab. lia. }
  split; [|split; [|split; [|split]]].
  - rewrite Ex, Eu, ten_N, Qmult_assoc, <- injZ_mult. apply Hscale. rewrite Hpow. nia.
  - rewrite Ex, Eu, ten_N, Qmult_assoc, <- injZ_mult. apply Qmult_lt_compat_r; [done|]. rewrite <- Zlt_Qlt. nia.
  - apply Hscale in H2. rewrite injZ_plus, !(injZ_mult 2) in H2. change (inject_Z (Z.of_N 2)) with 2 in H2. rewrite Ex, Ev, Eu. lra.
  - apply Hscale in H1. rewrite injZ_plus, !(injZ_mult 2) in H1. change (inject_Z (Z.of_N 2)) with 2 in H1. rewrite Ex, Ev, Eu. lra.
  - intros [H|H]; apply H3; [left|right]; apply Hscale2; rewrite injZ_plus, !(injZ_mult 2); change (inject_Z (Z.of_N 2)) with 2; rewrite Ex, Ev, Eu in H; lra.
Qed.
Print Assumptions C68_half_even.
Example C68_half_even_instance : dec_round 4 (Dec 10005 0) = Dec 1000 1 /\ dec_round 4 (Dec 10015 0) = Dec 1002 1 /\ dec_round 4 (Dec 99995 0) = Dec 1000 2 /\ (0 < dc_coef (Dec 10015 0))%N.
Proof. repeat split; by vm_compute. Qed.
