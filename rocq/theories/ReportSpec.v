(** What the rows of the report of a contraction mean, and what its numbers say. *)
From Coq Require Import QArith.
From Verif Require Import Prelude Einsum Helpers Contract Spec.

Section Rows.
  Context {K : semiring}.
  Notation tens := (tensor K).
  (** The equation [ts -> out] continues the computation of [total] from the arrays [held]. *)
  Definition continues (ts : list str) (out : str) (held : list tens) (total : tens) : Prop := length ts = length held /\ einsum (zip ts held) out ≡ₜ total.
  (** A step with the equation [eq] takes the arrays [taken] and gives [T]. *)
  Definition computes (eq : str) (taken : list tens) (T : tens) : Prop := exists ts r, eq = equation ts r /\ length ts = length taken /\ T ≡ₜ einsum (zip ts taken) r.
  (** The arrays held after the first [k] steps of a run. *)
  Definition held_after (ord : gset N -> list N) (B : backend K) (ops : list tens) (cl : list contraction) (k : nat) : res (list tens) := foldM_res (core_step ord B) ops (take k cl).
End Rows.

(** A numeral in positional notation. *)
Definition numeral (s : str) : N := foldl (fun a c => (10 * a + (c - 48))%N) 0%N s.
Definition digit (c : N) : Prop := (48 <= c <= 57)%N.
(** [w] writes [n] in digits, the first of them not zero unless it is the only one. *)
Definition writes (w : str) (n : nat) : Prop := w <> [] /\ Forall digit w /\ numeral w = N.of_nat n /\ (head w = Some 48%N -> length w = 1).
(** How a kind of step is called: the names in the documentation of can_blas (blas.py 20-32), and 0 for a step that BLAS cannot do. *)
Definition kind_name (k : blas_kind) (w : str) : Prop :=
  (k, w) ∈ [(BFalse, lit "0"); (GEMM, lit "GEMM"); (DOT, lit "DOT"); (TDOT, lit "TDOT"); (OUTER_EINSUM, lit "OUTER/EINSUM"); (DOT_EINSUM, lit "DOT/EINSUM"); (GEMV_EINSUM, lit "GEMV/EINSUM")].
(** [s] reads [m / 1000 * 10 ^ x]. *)
Definition reads (s : str) (m : N) (x : Z) : Prop := exists a b c d sign ds, s = [a; c_dot; b; c; d] ++ lit "e" ++ sign :: ds /\ Forall digit [a; b; c; d] /\ ds <> [] /\ Forall digit ds /\
  m = numeral [a; b; c; d] /\ ((sign = 43%N /\ x = Z.of_N (numeral ds)) \/ (sign = 45%N /\ x = (- Z.of_N (numeral ds))%Z)).
(** [s] reads a number that differs from [v] by at most [r] times [v]. *)
Definition shown (m : N) (x : Z) : Q := inject_Z (Z.of_N m) / 1000 * (10 # 1) ^ x.
Definition about (v r : Q) (s : str) : Prop := exists m x, reads s m x /\ (v - r * v <= shown m x)%Q /\ (shown m x <= v + r * v)%Q.
(** The words of a line: its pieces between spaces. *)
Definition words (line : str) : list str := filter (fun w => w <> []) (split [c_space] line).
