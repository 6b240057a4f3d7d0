(** Properties C37 and C38: einsum over arrays of objects, and the torch tensordot. *)
From Verif Require Import Prelude Einsum EinsumFacts EinsumOps Parser Contract Spec StringFacts RefBackend ApiSpec NoOptFacts ObjectEinsum ObjectSpec ObjectFacts Torch TorchSpec TorchFacts.

(** ** C37 *)
(** For elements of any type with any two operations (no law is assumed): the entry at an output coordinate is the sum, added from the left
    in lexicographic order of the summed labels' coordinates, of the products taken from the left in operand order.
    Full statement: all equations and shapes.  Missing: a label with different dimensions, and sums of nothing (both false, see below). *)
Theorem C37_any_partial (A : Type) (add mul : A -> A -> A) (none : A) (d : N -> nat) (ts : list str) (out : str) (arrays : list (tensor A)) :
  ts <> [] -> Forall (Forall plain) ts -> Forall plain out -> NoDup out -> (forall c, c ∈ out -> c ∈ mjoin ts) ->
  Forall2 (fun t x => shape x = d <$> t) ts arrays ->
  (forall k, k ∈ mjoin ts -> k ∉ out -> d k <> 0) \/ (exists k, k ∈ out /\ d k = 0) ->
  exists T, object_einsum add mul none (equation ts out) arrays = Ok T /\ shape T = d <$> out /\
    forall cs, in_range cs (d <$> out) -> get T cs = object_entry add mul none d (zip ts arrays) out cs.
Proof.
  intros H1 H2 H3 H4 H5 H6 H7. apply object_ok; try done. destruct H7 as [H7|H7]; [left|by right].
  intros k [Hk Hk']%elem_of_list_filter. apply H7; [exact (proj1 (elem_firsts _ _) Hk')|done].
Qed.
Print Assumptions C37_any_partial.
(** Over a commutative semiring this is einsum. *)
Theorem C37_semiring_partial (K : semiring) (none : K) (d : N -> nat) (ts : list str) (out : str) (arrays : list (tensor K)) :
  ts <> [] -> Forall (Forall plain) ts -> Forall plain out -> NoDup out -> (forall c, c ∈ out -> c ∈ mjoin ts) ->
  Forall2 (fun t x => shape x = d <$> t) ts arrays ->
  (forall k, k ∈ mjoin ts -> k ∉ out -> d k <> 0) ->
  exists T, object_einsum sadd smul none (equation ts out) arrays = Ok T /\ T ≡ₜ einsum (zip ts arrays) out.
Proof.
  intros H1 H2 H3 H4 H5 H6 H7. destruct (C37_any_partial K sadd smul none d ts out arrays) as (T & HT & Hs & Hg); auto.
  assert (Hz : forall k, k ∈ inner_of ts out -> d k <> 0).
  { intros k [Hk Hk']%elem_of_list_filter. apply H7; [exact (proj1 (elem_firsts _ _) Hk')|done]. }
  assert (Hsh : shape (einsum (zip ts arrays) out) = d <$> out) by exact (einsum_object_shape d ts out arrays H5 H6).
  exists T. split; [done|]. split; [by rewrite Hs, Hsh|]. intros cs Hcs. rewrite Hs in Hcs. rewrite (Hg cs Hcs). by apply object_entry_einsum.
Qed.
Print Assumptions C37_semiring_partial.
(** A summed label of dimension 0 (and no empty output) is an error, for every equation and array, where einsum gives zeros. *)
Theorem C37_empty_sum (A : Type) (add mul : A -> A -> A) (none : A) (d : N -> nat) (ts : list str) (out : str) (arrays : list (tensor A)) (k : N) :
  ts <> [] -> Forall (Forall plain) ts -> Forall plain out -> NoDup out -> (forall c, c ∈ out -> c ∈ mjoin ts) ->
  Forall2 (fun t x => shape x = d <$> t) ts arrays -> k ∈ mjoin ts -> k ∉ out -> d k = 0 -> (forall c, c ∈ out -> d c <> 0) ->
  object_einsum add mul none (equation ts out) arrays = Err TypeError.
Proof. exact (object_empty add mul none d ts out arrays k). Qed.
Print Assumptions C37_empty_sum.
(** Terms as elements: the matrix product of 1x2 and 2x1 arrays of words, showing the order of the operations. *)
Definition wd : list (tensor str) := [Tensor [1; 2] (fun cs => lit (match cs with [_; 0] => "p" | _ => "q" end)); Tensor [2; 1] (fun cs => lit (match cs with [0; _] => "r" | _ => "s" end))].
Definition wplus (a b : str) : str := a ++ lit "+" ++ b.
Definition wtimes (a b : str) : str := a ++ lit "*" ++ b.
Example C37_words :
  (T ← object_einsum wplus wtimes [] (equation [lit "ab"; lit "bc"] (lit "ca")) wd; Ok (shape T, get T [0; 0])) = Ok ([1; 1], lit "p*r+q*s") /\
  Forall2 (fun t (x : tensor str) => shape x = (fun c => if decide (c = 98%N) then 2 else 1) <$> t) [lit "ab"; lit "bc"] wd.
Proof. split; [by vm_compute|]. by repeat constructor. Qed.
Definition ob_ops : list (tensor nat_semiring) := [arr [2; 3] (seq 1 6 : list nat_semiring); arr [3; 2] (seq 1 6 : list nat_semiring)].
Example C37_matmul : (T ← object_einsum sadd smul (szero : nat_semiring) (equation [lit "ab"; lit "bc"] (lit "ca")) ob_ops; Ok (shape T, entries T)) = Ok ([2; 2], [22; 49; 28; 64]).
Proof. by vm_compute. Qed.
(** Broadcasting of a dimension 1 is not the definition: the dimension that comes last is taken. *)
Theorem C37_broadcast_refuted : exists (ts : list str) (out : str) (arrays : list (tensor nat_semiring)) T,
  good (zip ts arrays) /\ object_einsum sadd smul (szero : nat_semiring) (equation ts out) arrays = Ok T /\
  shape (einsum (zip ts arrays) out) = [2] /\ shape T = [1].
Proof.
  exists [lit "a"; lit "a"], (lit "a"), [arr [2] ([1; 2] : list nat_semiring); arr [1] ([5] : list nat_semiring)].
  eexists. split; [apply good_check_ok; by vm_compute|]. split; [by vm_compute|]. split; by vm_compute.
Qed.
Print Assumptions C37_broadcast_refuted.
Theorem C37_empty_refuted : exists (ts : list str) (out : str) (arrays : list (tensor nat_semiring)),
  good (zip ts arrays) /\ object_einsum sadd smul (szero : nat_semiring) (equation ts out) arrays = Err TypeError /\
  shape (einsum (zip ts arrays) out) = [] /\ get (einsum (zip ts arrays) out) [] = 0.
Proof. exists [lit "a"], [], [arr [0] ([] : list nat_semiring)]. split; [apply good_check_ok; by vm_compute|]. split; [by vm_compute|]. split; by vm_compute. Qed.
Print Assumptions C37_empty_refuted.

(** Checks of concrete conditions. *)
Ltac by_check := first [done | apply good_check_ok; by vm_compute | apply (bool_decide_unpack _); by vm_compute
  | (intros ? Hin; apply elem_of_list_In in Hin; apply elem_of_list_In; cbn in Hin |- *; intuition congruence)].
(** ** C38 *)
(** For every form of the [axes] argument numpy documents: the result is tensordot, provided the distinct axes are at most 52.
    Full statement: the same without the bound, and failure for arguments tensordot does not admit.  Both are false, see below. *)
Theorem C38_partial (K : semiring) (B : backend K) (x y : tensor K) (axes : axes_arg) (axl axr : list nat) :
  backend_ok B -> b_has_einsum B = true ->
  meant_axes (length (shape x)) (length (shape y)) axes axl axr -> dottable x y axl axr ->
  length (shape x) + length (shape y) - length axl <= 52 ->
  exists T, torch_tensordot (b_einsum B) x y axes = Ok T /\ T ≡ₜ tensordot x y axl axr.
Proof. intros. by apply torch_tensordot_ok. Qed.
Print Assumptions C38_partial.
(** The bound is exact: with more axes the call fails, for all arrays and axes. *)
Theorem C38_stop (K : semiring) (B : backend K) (x y : tensor K) (axes : axes_arg) (axl axr : list nat) :
  meant_axes (length (shape x)) (length (shape y)) axes axl axr -> dottable x y axl axr ->
  52 < length (shape x) + length (shape y) - length axl -> torch_tensordot (b_einsum B) x y axes = Err StopIteration.
Proof. exact (torch_tensordot_stop B x y axes axl axr). Qed.
Print Assumptions C38_stop.
(** The einsum wrapper: any symbols, at most 52 different ones. *)
Theorem C38_einsum (K : semiring) (B : backend K) (ts : list str) (out : str) (ops : list (tensor K)) :
  backend_ok B -> b_has_einsum B = true ->
  ts <> [] -> length ts = length ops -> Forall (Forall plain) ts -> NoDup out -> (forall c, c ∈ out -> c ∈ labels_of (zip ts ops)) ->
  ranked (zip ts ops) -> compat (zip ts ops) -> diagonal (zip ts ops) -> size (list_to_set (labels_of (zip ts ops)) : gset N) <= 52 ->
  exists T, torch_einsum (b_einsum B) (equation ts out) ops = Ok T /\ T ≡ₜ einsum (zip ts ops) out.
Proof. intros HB. exact (StepFacts.convert_einsum_ok B HB ts out ops). Qed.
Print Assumptions C38_einsum.
Definition to_x : tensor nat_semiring := arr [2; 3; 2] (seq 1 12 : list nat_semiring).
Definition to_y : tensor nat_semiring := arr [3; 2; 2] (seq 1 12 : list nat_semiring).
(** Negative axes in a list, an integer, a pair of integers. *)
Example C38_forms :
  let td axes := (T ← torch_tensordot (b_einsum (ref_backend nat_semiring true)) to_x to_y axes; Ok (shape T, entries T)) in
  let ref axl axr := Ok (shape (tensordot to_x to_y axl axr), entries (tensordot to_x to_y axl axr)) in
  td (AxesPair (AxMany [-2; 0]%Z) (AxMany [0; -1]%Z)) = ref [1; 0] [0; 2] /\ td (AxesInt 2) = ref [1; 2] [0; 1] /\
  td (AxesPair (AxOne 1) (AxMany [0]%Z)) = ref [1] [0] /\ ref [1; 2] [0; 1] = Ok ([2; 2], [161; 182; 377; 434]).
Proof. by vm_compute. Qed.
Example C38_meant : meant_axes 3 3 (AxesPair (AxMany [-2; 0]%Z) (AxMany [0; -1]%Z)) [1; 0] [0; 2] /\ dottable to_x to_y [1; 0] [0; 2] /\ meant_axes 3 3 (AxesInt 2) [1; 2] [0; 1].
Proof.
  split_and!; [cbn; unfold names_axis; split; repeat constructor; cbn; lia| |exists 2; repeat split; lia].
  split_and!; [apply (bool_decide_unpack _); by vm_compute|apply (bool_decide_unpack _); by vm_compute|done|done].
Qed.
(** 53 axes: numpy contracts nothing and returns the outer product (its limit is 64 axes in numpy 2); here StopIteration. *)
Theorem C38_refuted : exists (x y : tensor nat_semiring) axes axl axr,
  meant_axes (length (shape x)) (length (shape y)) axes axl axr /\ dottable x y axl axr /\
  forall B, torch_tensordot (b_einsum B) x y axes = Err StopIteration.
Proof.
  exists (arr (replicate 27 1) ([3] : list nat_semiring)), (arr (replicate 26 1) ([5] : list nat_semiring)), (AxesInt 0), [], [].
  assert (Hm : forall nx ny, meant_axes nx ny (AxesInt 0) [] []) by (intros; exists 0; repeat split; lia).
  split_and!; [apply Hm|split_and!; constructor|]. intros B. eapply C38_stop; [apply Hm|split_and!; constructor|]. vm_compute. lia.
Qed.
Print Assumptions C38_refuted.
(** Axes that tensordot does not admit are not refused: sequences of different lengths, an axis given twice, dimensions 1 and 3. *)
Theorem C38_invalid_refuted : exists (x y : tensor nat_semiring), forall axes, axes ∈ [AxesPair (AxMany [0; 1]%Z) (AxMany [0]%Z); AxesPair (AxMany [0; 0]%Z) (AxMany [0; 1]%Z); AxesPair (AxOne 1) (AxOne 0)] ->
  (forall axl axr, meant_axes (length (shape x)) (length (shape y)) axes axl axr -> ~ dottable x y axl axr) /\
  (forall B, backend_ok B -> b_has_einsum B = true -> exists T, torch_tensordot (b_einsum B) x y axes = Ok T).
Proof.
  exists (arr [3; 1] ([1; 2; 3] : list nat_semiring)), (arr [3; 3] (seq 1 9 : list nat_semiring)). intros axes Haxes. split.
  - intros axl axr Hm (Hl & Hr & Hlen & Hd).
    apply elem_of_cons in Haxes as [->|Haxes]; [|apply elem_of_cons in Haxes as [->|Haxes%elem_of_list_singleton]]; subst; cbn in Hm.
    + destruct Hm as [H1%Forall2_length H2%Forall2_length]. rewrite <- Hlen, <- H1 in H2. done.
    + destruct Hm as [H1 _]. inversion H1 as [|? a ? l [Ha Ea] H2]; subst. inversion H2 as [|? b ? l' [Hb Eb] H3]; subst. inversion H3; subst.
      assert (a = b) as -> by lia. apply NoDup_cons in Hl as [Hl _]. apply Hl. left.
    + destruct Hm as [(a & -> & [Ha Ea]) (b & -> & [Hb Eb])]. assert (a = 1) as -> by lia. assert (b = 0) as -> by lia. done.
  - intros B HB He. apply elem_of_cons in Haxes as [->|Haxes]; [|apply elem_of_cons in Haxes as [->|Haxes%elem_of_list_singleton]]; subst.
    + destruct (ok_einsum _ HB He [lit "ab"; lit "ac"] (lit "bc") [arr [3; 1] ([1; 2; 3] : list nat_semiring); arr [3; 3] (seq 1 9 : list nat_semiring)]) as (T & HT & _);
        [..|exists T; exact HT]; by_check.
    + destruct (ok_einsum _ HB He [lit "bc"; lit "ab"] (lit "c") [arr [3; 1] ([1; 2; 3] : list nat_semiring); arr [3; 3] (seq 1 9 : list nat_semiring)]) as (T & HT & _);
        [..|exists T; exact HT]; by_check.
    + destruct (ok_einsum _ HB He [lit "ba"; lit "ac"] (lit "bc") [arr [3; 1] ([1; 2; 3] : list nat_semiring); arr [3; 3] (seq 1 9 : list nat_semiring)]) as (T & HT & _);
        [..|exists T; exact HT]; by_check.
Qed.
Print Assumptions C38_invalid_refuted.
