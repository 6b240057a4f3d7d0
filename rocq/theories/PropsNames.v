(** Properties C40 and C57, continued: which names are the same to the registry of path functions and to the backends with conversion. *)
From Verif Require Import Prelude Random RandomSpec Dispatch PropsRandom.

(** The same letter of the English alphabet, small or capital, or the same character. *)
Definition same_letter (x y : N) : Prop := x = y \/ exists k, (k < 26)%N /\ ((x = 65 + k /\ y = 97 + k) \/ (x = 97 + k /\ y = 65 + k))%N.
Definition spelt_like : str -> str -> Prop := Forall2 same_letter.

Lemma lower_char_same x y : lower_char x = lower_char y <-> same_letter x y.
Proof.
  unfold lower_char, same_letter. split.
  - intros H. destruct (decide (65 <= x <= 90)%N), (decide (65 <= y <= 90)%N); [left; lia| | |by left].
    + right. exists (x - 65)%N. split; [lia|]. left. lia.
    + right. exists (y - 65)%N. split; [lia|]. right. lia.
  - intros [->|(k & Hk & [[-> ->]|[-> ->]])]; [done|rewrite decide_True, decide_False by lia; lia|rewrite decide_False, decide_True by lia; lia].
Qed.
Lemma lower_spelt a b : lower a = lower b <-> spelt_like a b.
Proof.
  unfold lower, spelt_like. revert b. induction a as [|x a IH]; intros [|y b]; rewrite ?fmap_cons; [by split|by split; inversion 1|by split; inversion 1|]. rewrite Forall2_cons, <-lower_char_same, <-IH.
  split; [by intros [= ? ?]|]. intros [-> ->]. done.
Qed.

(** A function is found under exactly the spellings of the name it was registered with; the other names keep their functions. *)
Theorem C40_spelling {F} (reg reg' : list (str * F)) (n m : str) (f : F) : register_path_fn reg n f = Ok reg' ->
  (spelt_like n m -> get_path_fn reg' m = Ok f) /\ (~ spelt_like n m -> get_path_fn reg' m = get_path_fn reg m).
Proof.
  intros H. split; rewrite <-lower_spelt; intros Hm; [by eapply C40_registered|].
  unfold register_path_fn in H. destruct (lookup_fn reg n); [done|]. apply Ok_inj in H as <-. unfold get_path_fn. by rewrite lookup_set, decide_False.
Qed.
Print Assumptions C40_spelling.
Example C40_spelling_instance : exists reg, register_path_fn [(lit "greedy", 1)] (lit "Zigzag") 2 = Ok reg /\ spelt_like (lit "Zigzag") (lit "zigZAG") /\ get_path_fn reg (lit "zigZAG") = Ok 2 /\ ~ spelt_like (lit "Zigzag") (lit "[igzag") /\
  get_path_fn reg (lit "GREEDY") = Ok 1.
Proof. eexists. split; [reflexivity|]. rewrite <-!lower_spelt. split; [by vm_compute|]. split; [by vm_compute|]. split; [by vm_compute|by vm_compute]. Qed.

(** Conversion is announced for tensorflow, theano, cupy, torch and jax, in any spelling, and there is a function for the names in lower case. *)
Theorem C57_names (b : str) :
  (has_backend b = true <-> spelt_like b (lit "tensorflow") \/ spelt_like b (lit "theano") \/ spelt_like b (lit "cupy") \/ spelt_like b (lit "torch") \/ spelt_like b (lit "jax")) /\
  (is_Ok (convert_fn b) <-> b = lit "tensorflow" \/ b = lit "theano" \/ b = lit "cupy" \/ b = lit "torch" \/ b = lit "jax").
Proof.
  split.
  - unfold has_backend, convert_names. rewrite bool_decide_eq_true, <-!lower_spelt, !elem_of_cons, elem_of_nil.
    change (lower (lit "tensorflow")) with (lit "tensorflow"). change (lower (lit "theano")) with (lit "theano"). change (lower (lit "cupy")) with (lit "cupy"). change (lower (lit "torch")) with (lit "torch"). change (lower (lit "jax")) with (lit "jax"). tauto.
  - unfold convert_fn, convert_names. case_decide as H; rewrite !elem_of_cons, elem_of_nil in H; split; [intros _; tauto|by eexists|by intros [? ?]|tauto].
Qed.
Print Assumptions C57_names.
Example C57_names_instance : has_backend (lit "JaX") = true /\ has_backend (lit "dask") = false /\ is_Ok (convert_fn (lit "cupy")).
Proof. split; [by vm_compute|]. split; [by vm_compute|]. by eexists. Qed.
