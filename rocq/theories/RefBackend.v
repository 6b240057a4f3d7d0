(** A concrete array library meeting [backend_ok], a concrete semiring, and checkers for concrete examples. *)
From Verif Require Import Prelude Einsum EinsumFacts Parser Helpers Contract Spec ParseSpec StringFacts StepFacts.
From Coq Require Import Ring_theory ZArith ArithRing.

Definition nat_semiring : semiring := Semiring nat 0 1 Nat.add Nat.mul natSRth.
Definition Z_semiring : semiring.
Proof. refine (Semiring Z 0%Z 1%Z Z.add Z.mul _). constructor; intros; lia. Defined.

(** The library that computes the definitions. *)
Definition ref_backend (K : semiring) (has_einsum : bool) : backend K :=
  Backend has_einsum
    (fun s ops => '(i, o) ← split_arrow s; Ok (einsum (zip (split s_comma i) ops) o))
    (fun x y a b => Ok (tensordot x y a b))
    (fun x axes => Ok (transpose x axes)).
Lemma letters_plain : Forall plain letters.
Proof. unfold plain. repeat (constructor; [done|]). constructor. Qed.
Lemma ref_backend_ok K h : backend_ok (ref_backend K h).
Proof.
  split.
  - intros _ ts out ops Hne Hlen Hlet Hnd Hout Hr Hc Hd. simpl.
    assert (Hpl : Forall (Forall plain) ts).
    { eapply Forall_impl; [exact Hlet|]. intros t Ht. eapply Forall_impl; [exact Ht|]. intros c Hc'. pose proof letters_plain as Hl.
      rewrite Forall_forall in Hl. auto. }
    assert (Hod : c_dash ∉ out).
    { intros Hin%Hout. apply elem_labels_zip in Hin as (t & Ht & Hin); [|done]. by destruct (plain_in ts t _ Hpl Ht Hin) as (_ & ? & _). }
    unfold split_arrow, equation. rewrite split_arrow_two by (done || by apply plain_join_dash). simpl.
    unfold s_comma. rewrite split1_join; [by eexists|done|]. rewrite Forall_forall. intros t Ht Hin.
    by destruct (plain_in ts t _ Hpl Ht Hin) as (? & _).
  - intros. by eexists.
  - intros. by eexists.
Qed.

(** Iteration order used by the examples. *)
Definition ord0 : gset N -> list N := elements.
Lemma ord0_ok s : ord0 s ≡ₚ elements s. Proof. done. Qed.

(** Checking [good] on concrete operands. *)
Section Check.
  Context {K : semiring} {L : Type} `{EqDecision L}.
  Notation operand := (list L * tensor K)%type.
  Definition good_check (tops : list operand) : bool :=
    bool_decide (Forall (fun p => length p.1 = length (shape p.2)) tops) &&
    bool_decide (Forall (fun a => Forall (fun b => a.1 = b.1 -> a.2 = b.2 \/ (a.2 = 1 /\ b.2 <> 0) \/ (b.2 = 1 /\ a.2 <> 0)) (axes_of tops)) (axes_of tops)) &&
    bool_decide (Forall (fun p => Forall (fun a => Forall (fun b => a.1 = b.1 -> a.2 = b.2) (zip p.1 (shape p.2))) (zip p.1 (shape p.2))) tops).
  Lemma good_check_ok tops : good_check tops = true -> good tops.
  Proof.
    unfold good_check. rewrite !andb_true_iff, !bool_decide_eq_true. intros [[Hr Hc] Hd]. split.
    - done.
    - intros l d d' H1 H2. rewrite Forall_forall in Hc. specialize (Hc _ H1). rewrite Forall_forall in Hc. specialize (Hc _ H2 eq_refl). simpl in Hc. lia.
    - intros p i j c d d' Hp Hi Hj Hdi Hdj. rewrite Forall_forall in Hd. specialize (Hd p Hp). rewrite Forall_forall in Hd.
      assert (H1 : (c, d) ∈ zip p.1 (shape p.2)) by (apply elem_of_lookup_zip_with; eauto 10).
      assert (H2 : (c, d') ∈ zip p.1 (shape p.2)) by (apply elem_of_lookup_zip_with; eauto 10).
      specialize (Hd _ H1). rewrite Forall_forall in Hd. exact (Hd _ H2 eq_refl).
    - intros l H1 H2. rewrite Forall_forall in Hc. specialize (Hc _ H1). rewrite Forall_forall in Hc. specialize (Hc _ H2 eq_refl). simpl in Hc. lia.
  Qed.
End Check.
Lemma complete_check n p : bool_decide (p <> []) && (fix go n p := match p with [] => bool_decide (n = 1) | s :: p' => bool_decide (s <> [] /\ NoDup s /\ Forall (fun i => i < n) s) && go (n - length s + 1) p' end) n p = true -> complete n p.
Proof.
  rewrite andb_true_iff, bool_decide_eq_true. intros [Hne H]. split; [done|]. clear Hne. revert n H. induction p as [|s p IH]; intros n; simpl.
  - by rewrite bool_decide_eq_true.
  - rewrite andb_true_iff, bool_decide_eq_true. naive_solver.
Qed.
(** Arrays from a shape and an entry function, and the entries of an array in row-major order. *)
Fixpoint all_coords (dims : list nat) : list (list nat) :=
  match dims with [] => [[]] | d :: ds => i ← seq 0 d; cons i <$> all_coords ds end.
Definition entries {K : semiring} (T : tensor K) : list K := get T <$> all_coords (shape T).
(** Row-major array of given entries. *)
Fixpoint offset (dims cs : list nat) : nat :=
  match dims, cs with _ :: ds, c :: cs' => c * prod_list ds + offset ds cs' | _, _ => 0 end.
Definition arr {K : semiring} (dims : list nat) (l : list K) : tensor K := Tensor dims (fun cs => default szero (l !! offset dims cs)).

(** Checking [well_formed] and [plain_eqn] on concrete equations. *)
Global Instance fits_dec t sh : Decision (fits t sh).
Proof. unfold fits. destruct (t_post t); apply _. Defined.
Definition wf_check (e : eqn) (shapes : list (list nat)) : bool :=
  bool_decide (length (e_in e) = length shapes) && bool_decide (Forall (fun p => fits p.1 p.2) (zip (e_in e) shapes)) &&
  bool_decide (NoDup (out_labels e shapes)) && forallb (fun l => bool_decide (l ∈ in_labels e shapes ≫= id)) (out_labels e shapes).
Lemma wf_check_ok e shapes : wf_check e shapes = true -> well_formed e shapes.
Proof.
  unfold wf_check. rewrite !andb_true_iff, !bool_decide_eq_true, forallb_forall. intros [[[H1 H2] H3] H4]. split; try done.
  - revert H1 H2. generalize (e_in e) as ts. clear. intros ts. revert shapes. induction ts as [|t ts IH]; intros [|sh shs] Hl Hf; simplify_eq/=; [constructor|].
    inversion_clear Hf. constructor; auto.
  - intros l Hl. apply elem_of_list_In, H4, bool_decide_eq_true, elem_of_list_bind in Hl as (t & ? & ?). eauto.
Qed.
Global Instance plain_dec c : Decision (plain c).
Proof. unfold plain. apply _. Defined.
Definition plain_check (e : eqn) : bool :=
  bool_decide (Forall (fun t => Forall plain (t_named t)) (e_in e)) && match e_out e with None => true | Some o => bool_decide (Forall plain (t_named o)) end.
Lemma plain_check_ok e : plain_check e = true -> plain_eqn e.
Proof. unfold plain_check, plain_eqn. rewrite andb_true_iff, bool_decide_eq_true. destruct (e_out e); [by rewrite bool_decide_eq_true|tauto]. Qed.
