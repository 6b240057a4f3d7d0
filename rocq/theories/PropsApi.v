(** Properties C09, C11, C43, C44, C45: statements, each with a concrete instance. *)
From Verif Require Import Prelude Einsum EinsumFacts EinsumOps Parser Helpers Contract Spec PathSpec StringFacts SymbolFacts ParseSpec ParseProof StepFacts ContractFacts PathFacts ParserFacts ParseSound TopFacts ContractMain RenameFacts RefBackend Api ApiSpec AlphaFacts FormatFacts InterleavedFacts NoOptFacts.

(** ** C09 *)
(** Full statement: interleaved input denotes the equation obtained with any injective naming [g] of the labels, which
    respects the order of the labels if the output is implicit.  Missing: implicit output with more than 26 labels (false,
    see below). *)
Theorem C09_interleaved_partial (K : semiring) (B : backend K) (ord : gset N -> list N) (g : Z -> N) (ie : ieqn) (ops : list (tensor K))
    (use_blas : bool) (opt : optimize_arg) (mem : memory_arg) :
  backend_ok B -> b_has_einsum B = true -> (forall x, ord x ≡ₚ elements x) -> ie_in ie <> [] ->
  (forall a b, a ∈ ieqn_labels ie -> b ∈ ieqn_labels ie -> g a = g b -> a = b) -> (forall a, a ∈ ieqn_labels ie -> plain (g a)) ->
  is_Some (ie_out ie) \/ (length (remove_dups (ieqn_labels ie)) <= 26 /\ forall a b, a ∈ ieqn_labels ie -> b ∈ ieqn_labels ie -> (a < b)%Z -> (g a < g b)%N) ->
  let e := named_eqn g ie in
  let tops := zip (in_labels e (shape <$> ops)) ops in
  well_formed e (shape <$> ops) -> good tops -> length (remove_dups (labels_of tops)) <= 52 -> mem_valid mem -> strategy_ok opt (length ops) ->
  exists T, contract_interleaved ord B use_blas opt mem (isub <$> ie_in ie) (isub <$> ie_out ie) ops = Ok T /\ T ≡ₜ einsum tops (out_labels e (shape <$> ops)).
Proof.
  intros HB He Ho Hne Hinj Hpl Hord e tops Hwf Hg Hsz Hm Hs.
  exact (interleaved_ok ord Ho B HB g ie ops Hne Hinj Hpl Hord Hwf use_blas opt mem Hg Hm Hs He Hsz).
Qed.
Print Assumptions C09_interleaved_partial.
(** contract(A, [7, ..., -2], B, [-2, 3]): labels -2 < 3 < 7, implicit output [..., 3, 7]. *)
Definition ex_ieqn : ieqn := IEqn [ITerm [7%Z] (Some [(-2)%Z]); ITerm [(-2)%Z; 3%Z] None] None.
Definition ex_name (l : Z) : N := Z.to_N (l + 100).
Definition ex_iops : list (tensor nat_semiring) := [arr [2; 3; 2] (seq 1 12 : list nat_semiring); arr [2; 2] (seq 5 4 : list nat_semiring)].
Example C09_instance :
  (forall a b, a ∈ ieqn_labels ex_ieqn -> b ∈ ieqn_labels ex_ieqn -> ex_name a = ex_name b -> a = b) /\
  (forall a, a ∈ ieqn_labels ex_ieqn -> plain (ex_name a)) /\ length (remove_dups (ieqn_labels ex_ieqn)) <= 26 /\
  (forall a b, a ∈ ieqn_labels ex_ieqn -> b ∈ ieqn_labels ex_ieqn -> (a < b)%Z -> (ex_name a < ex_name b)%N) /\
  well_formed (named_eqn ex_name ex_ieqn) (shape <$> ex_iops) /\ good (zip (in_labels (named_eqn ex_name ex_ieqn) (shape <$> ex_iops)) ex_iops) /\
  (T ← contract_interleaved ord0 (ref_backend nat_semiring true) true (OPath [[0; 1]]) MNone (isub <$> ie_in ex_ieqn) (isub <$> ie_out ex_ieqn) ex_iops;
   Ok (shape T, entries T)) = Ok ([3; 2; 2], [19; 91; 22; 106; 43; 115; 50; 134; 67; 139; 78; 162]).
Proof.
  split; [|split; [|split; [|split; [|split; [|split]]]]].
  - intros a b Ha Hb. assert (H : Forall (fun a => Forall (fun b => ex_name a = ex_name b -> a = b) (ieqn_labels ex_ieqn)) (ieqn_labels ex_ieqn)).
    { apply (bool_decide_unpack _). by vm_compute. }
    rewrite Forall_forall in H. specialize (H a Ha). rewrite Forall_forall in H. by apply H.
  - intros c Hc. assert (H : Forall (fun c => plain (ex_name c)) (ieqn_labels ex_ieqn)) by (apply (bool_decide_unpack _); by vm_compute).
    rewrite Forall_forall in H. by apply H.
  - apply (bool_decide_unpack _). by vm_compute.
  - intros a b Ha Hb. assert (H : Forall (fun a => Forall (fun b => (a < b)%Z -> (ex_name a < ex_name b)%N) (ieqn_labels ex_ieqn)) (ieqn_labels ex_ieqn)).
    { apply (bool_decide_unpack _). by vm_compute. }
    rewrite Forall_forall in H. specialize (H a Ha). rewrite Forall_forall in H. by apply H.
  - apply wf_check_ok. by vm_compute.
  - apply good_check_ok. by vm_compute.
  - by vm_compute.
Qed.

(** 27 labels, one axis each, implicit output: the axis of label 26 comes first instead of last. *)
Definition ex_27 : ieqn := IEqn [ITerm (Z.of_nat <$> seq 0 27) None] None.
Definition ex_27_ops : list (tensor nat_semiring) := [arr (replicate 26 1 ++ [2]) ([1; 2] : list nat_semiring)].
Theorem C09_order_refuted : exists (g : Z -> N) (ie : ieqn) (ops : list (tensor nat_semiring)) T,
  (forall a b, (a < b)%Z -> a ∈ ieqn_labels ie -> b ∈ ieqn_labels ie -> (g a < g b)%N) /\ (forall a, a ∈ ieqn_labels ie -> plain (g a)) /\
  well_formed (named_eqn g ie) (shape <$> ops) /\ good (zip (in_labels (named_eqn g ie) (shape <$> ops)) ops) /\
  contract_interleaved ord0 (ref_backend nat_semiring true) true (OPath [[0]]) MNone (isub <$> ie_in ie) (isub <$> ie_out ie) ops = Ok T /\
  shape T <> shape (einsum (zip (in_labels (named_eqn g ie) (shape <$> ops)) ops) (out_labels (named_eqn g ie) (shape <$> ops))).
Proof.
  exists ex_name, ex_27, ex_27_ops. eexists. split; [|split; [|split; [|split; [|split]]]].
  - intros a b Hab Ha Hb. assert (H : Forall (fun a => Forall (fun b => (a < b)%Z -> (ex_name a < ex_name b)%N) (ieqn_labels ex_27)) (ieqn_labels ex_27)).
    { apply (bool_decide_unpack _). by vm_compute. }
    rewrite Forall_forall in H. specialize (H a Ha). rewrite Forall_forall in H. by apply H.
  - intros c Hc. assert (H : Forall (fun c => plain (ex_name c)) (ieqn_labels ex_27)) by (apply (bool_decide_unpack _); by vm_compute).
    rewrite Forall_forall in H. by apply H.
  - apply wf_check_ok. by vm_compute.
  - apply good_check_ok. by vm_compute.
  - vm_compute. reflexivity.
  - by vm_compute.
Qed.
Print Assumptions C09_order_refuted.

(** ** C11 *)
Theorem C11_alpha_complete (s t : str) : alpha_canonicalize s = alpha_canonicalize t <-> alpha_equiv s t.
Proof. apply alpha_complete. Qed.
Print Assumptions C11_alpha_complete.
Theorem C11_alpha_canonical (s : str) : alpha_equiv s (alpha_canonicalize s).
Proof. apply alpha_canonical. Qed.
Print Assumptions C11_alpha_canonical.
Example C11_instance : alpha_canonicalize (lit "dbc...,...ca->d") = lit "abc...,...cd->a" /\
  alpha_equiv (lit "xa,ab->xb") (lit "ba,ac->bc") /\ ~ alpha_equiv (lit "ab,bc->ac") (lit "ab,ac->bc").
Proof.
  split; [by vm_compute|]. split; [apply C11_alpha_complete; by vm_compute|]. intros H%C11_alpha_complete. vm_compute in H. done.
Qed.

(** ** C43 *)
(** Full statement: contract(eq, *arrays, optimize=False) returns the Einstein sum for every equation of the grammar.
    Proved without spaces, and without ellipsis if a label is not one of the 52 letters; the rest is false, see below. *)
Theorem C43_no_optimization_partial (K : semiring) (B : backend K) (ord : gset N -> list N) (use_blas : bool) (mem : memory_arg) (e : eqn) (ops : list (tensor K)) :
  backend_ok B -> documented_einsum B -> b_has_einsum B = true ->
  e_in e <> [] -> plain_eqn e -> well_formed e (shape <$> ops) ->
  let tops := zip (in_labels e (shape <$> ops)) ops in
  good tops -> length (remove_dups (labels_of tops)) <= 52 ->
  no_ellipsis e \/ (forall c, c ∈ named_of e -> c ∈ letters) ->
  exists T, contract ord B use_blas OFalse mem (render e) ops = Ok T /\ T ≡ₜ einsum tops (out_labels e (shape <$> ops)).
Proof.
  intros HB HD He Hne Hpl Hwf tops Hg Hsz Hcase. unfold contract. destruct (has_valid_einsum_chars_only (render e)) eqn:Hv.
  - by apply no_opt_valid.
  - destruct Hcase as [Hell|Hlet]; [exact (no_opt_invalid B HB He e ops Hne Hpl Hwf Hg Hell Hv Hsz)|].
    rewrite (letters_valid e) in Hv by done. done.
Qed.
Print Assumptions C43_no_optimization_partial.
Definition ex_implicit : eqn := Eqn [ETerm (lit "b") (Some (lit "a")); ETerm (lit "cb") None] None.
Definition ex_imp : eqn := Eqn [ETerm [955%N; 97%N] None; ETerm [97%N; 98%N] None] None.
Example C43_instance :
  backend_ok (doc_backend nat_semiring) /\ documented_einsum (doc_backend nat_semiring) /\
  no_ellipsis ex_imp /\ well_formed ex_imp [[2; 3]; [3; 2]] /\
  (T ← contract ord0 (doc_backend nat_semiring) true OFalse MNone (render ex_imp)
         [arr [2; 3] (seq 1 6 : list nat_semiring); arr [3; 2] (seq 1 6 : list nat_semiring)]; Ok (shape T, entries T)) = Ok ([2; 2], [22; 49; 28; 64]) /\
  (T ← contract ord0 (doc_backend nat_semiring) true OFalse MNone (render ex_implicit)
         [arr [2; 1; 3] (seq 1 6 : list nat_semiring); arr [2; 2] (seq 1 4 : list nat_semiring)]; Ok (shape T, entries T)) = Ok ([1; 3; 2], [9; 19; 12; 26; 15; 33]).
Proof.
  split; [apply doc_backend_ok|]. split; [apply doc_backend_doc|]. split; [split; [by repeat constructor|done]|]. split; [apply wf_check_ok; by vm_compute|].
  split; by vm_compute.
Qed.

(** "...Ĥ" (an ellipsis and a label outside the 52 letters) becomes "aaab->b": the dots are renamed as labels, and on an operand
    of shape (2,2,2,2) the result is a vector instead of the operand. *)
Definition ex_dots : eqn := Eqn [ETerm [] (Some [292%N])] None.
Definition ex_dots_ops : list (tensor nat_semiring) := [arr [2; 2; 2; 2] (seq 1 16 : list nat_semiring)].
Theorem C43_ellipsis_refuted : exists (B : backend nat_semiring) (e : eqn) (ops : list (tensor nat_semiring)) T,
  backend_ok B /\ documented_einsum B /\ plain_eqn e /\ well_formed e (shape <$> ops) /\ good (zip (in_labels e (shape <$> ops)) ops) /\
  contract ord0 B true OFalse MNone (render e) ops = Ok T /\
  shape T <> shape (einsum (zip (in_labels e (shape <$> ops)) ops) (out_labels e (shape <$> ops))).
Proof.
  exists (doc_backend nat_semiring), ex_dots, ex_dots_ops. eexists. split; [apply doc_backend_ok|]. split; [apply doc_backend_doc|].
  split; [apply plain_check_ok; by vm_compute|]. split; [apply wf_check_ok; by vm_compute|]. split; [apply good_check_ok; by vm_compute|].
  split; [vm_compute; reflexivity|]. by vm_compute.
Qed.
Print Assumptions C43_ellipsis_refuted.
(** With spaces the library is given another equation: spaces are renamed as a label. *)
Theorem C43_spaces_refuted : exists s s' : str, filter (.≠ c_space) s = lit "ab,bc->ac" /\ s' = lit "bc,acda->abd" /\
  forall (K : semiring) (B : backend K) (ord : gset N -> list N) (use_blas : bool) (mem : memory_arg) (ops : list (tensor K)),
    contract ord B use_blas OFalse mem s ops = b_einsum B s' ops.
Proof.
  exists (lit "ab, bc -> ac"), (lit "bc,acda->abd"). split; [by vm_compute|]. split; [done|]. intros K B ord use_blas mem ops. reflexivity.
Qed.
Print Assumptions C43_spaces_refuted.

(** ** C44 *)
(** With no constants the equation is unchanged; otherwise removing the brackets gives it back and the terms inside
    brackets are those at the positions of the constants. *)
Theorem C44_no_constants (s : str) : format_const_einsum_str s [] = Ok s.
Proof. done. Qed.
Print Assumptions C44_no_constants.
Theorem C44_brackets (lhs : str) (out : option str) (constants : list nat) :
  let tail := match out with None => [] | Some o => s_arrow ++ o end in
  no_brackets (lhs ++ tail) -> c_dash ∉ lhs -> c_dash ∉ default [] out -> constants <> [] ->
  exists r, format_const_einsum_str (lhs ++ tail) constants = Ok (r ++ tail) /\ drop_brackets (r ++ tail) = lhs ++ tail /\
    scan false false [] r = imap (fun i t => (bool_decide (i ∈ constants), t)) (split s_comma lhs).
Proof. apply format_ok. Qed.
Print Assumptions C44_brackets.
Example C44_instance : format_const_einsum_str (lit "ab,bc,cd,,de->ae") [3; 0; 2] = Ok (lit "[ab],bc,[cd,],de->ae") /\
  scan false false [] (lit "[ab],bc,[cd,],de") = [(true, lit "ab"); (false, lit "bc"); (true, lit "cd"); (true, []); (false, lit "de")].
Proof. split; by vm_compute. Qed.

(** ** C45 *)
(** Full statement: every rectangular nested sequence of base values.  Missing: a dimension 0 (false, see below). *)
Theorem C45_get_shape_partial (x : pyval) (sh : list nat) : rectangular x sh -> Forall (fun d => 1 <= d) sh -> get_shape x = Ok sh.
Proof. apply get_shape_ok. Qed.
Print Assumptions C45_get_shape_partial.
Example C45_instance : rectangular (PSeq [PSeq [PBase; PBase; PBase]; PSeq [PBase; PBase; PBase]]) [2; 3].
Proof. repeat constructor. Qed.
Theorem C45_empty_refuted : exists x sh, rectangular x sh /\ get_shape x = Err IndexError.
Proof. exists (PSeq []), [0]. split; [|done]. apply (rect_seq [] []). constructor. Qed.
(** A list of arrays: the arrays are not looked into, the reported rank is too small. *)
Theorem C45_arrays_refuted : exists x, x = PSeq [PShaped [2; 3]; PShaped [2; 3]] /\ get_shape x = Ok [2].
Proof. eexists. done. Qed.
Print Assumptions C45_empty_refuted.
