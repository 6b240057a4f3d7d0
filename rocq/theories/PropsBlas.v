(** Property C47, continued: [can_blas] without shapes; statements, each with a concrete instance. *)
From Verif Require Import Prelude Helpers BlasSpec BlasFacts BlasFree PropsContract.

(** With shapes given the answer is the one without them, or False because a summed dimension is broadcast. *)
Theorem C47_without_shapes (l r result : str) (shl shr : list nat) (rest : list (list nat)) : length shl = length l -> length shr = length r ->
  let with_shapes := can_blas [l; r] result (summed l r result) (shl :: shr :: rest) in
  (same_dims l r shl shr -> with_shapes = can_blas_free [l; r] result (summed l r result)) /\ (~ same_dims l r shl shr -> with_shapes = BFalse).
Proof.
  intros Hl Hr ws. pose proof (C47_accepts l r result shl shr rest Hl Hr) as Ha. fold ws in Ha. split; intros Hd.
  - destruct (decide (ws = BFalse)) as [E|E].
    + assert (Hn : ~ tensordot_form l r result) by (intros Hf; by apply (proj2 Ha)). rewrite E. unfold can_blas_free. destruct (blas_chars_ok l r result) eqn:Hc; [by apply blas_chars_iff in Hc|done].
    + clear Ha. unfold ws, can_blas, can_blas_free in *. destruct (blas_chars_ok l r result); [|done]. cbn [negb] in *. destruct (blas_dims_ok l r shl shr (summed l r result)); [done|done].
  - destruct (decide (ws = BFalse)) as [E|E]; [done|]. apply Ha in E. tauto.
Qed.
Print Assumptions C47_without_shapes.
(** Without shapes, exactly what tensordot can do if no dimension is broadcast is accepted. *)
Theorem C47_free_accepts (l r result : str) : can_blas_free [l; r] result (summed l r result) <> BFalse <-> tensordot_form l r result.
Proof.
  destruct (C47_without_shapes l r result (replicate (length l) 1) (replicate (length r) 1) [] (replicate_length _ _) (replicate_length _ _)) as [H _].
  assert (Hd : same_dims l r (replicate (length l) 1) (replicate (length r) 1)).
  { intros i j c Hi Hj. rewrite !lookup_replicate_2; [done| |]; by eapply lookup_lt_Some. }
  rewrite <-(H Hd), C47_accepts by apply replicate_length. tauto.
Qed.
Print Assumptions C47_free_accepts.
Theorem C47_free_arity (inputs : list str) (result : str) (removed : gset N) : length inputs <> 2 -> can_blas_free inputs result removed = BFalse.
Proof. by destruct inputs as [|? [|? [|? ?]]]. Qed.
Print Assumptions C47_free_arity.
(** 'ij,jk->ik' with j broadcast (blas.py 54-56), and the other examples there. *)
Example C47_free_instance : can_blas_free [lit "ij"; lit "jk"] (lit "ik") (list_to_set (lit "j")) = GEMM /\ can_blas [lit "ij"; lit "jk"] (lit "ik") (list_to_set (lit "j")) [[4; 1]; [5; 6]] = BFalse /\
  can_blas_free [lit "ijj"; lit "jk"] (lit "ik") (list_to_set (lit "j")) = BFalse /\ can_blas_free [lit "ab"; lit "cd"] (lit "abcd") ∅ = OUTER_EINSUM.
Proof. by vm_compute. Qed.
