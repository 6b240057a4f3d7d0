(** Specification of einsum equations (numpy's documented rules), independent of the parser.
    An equation is a list of terms and possibly an output term; a term is labels, possibly with one ellipsis. *)
From Verif Require Import Prelude Spec.

(** [pre...post], or just [pre] when [t_post] is [None]. *)
Record eterm := ETerm { t_pre : list N; t_post : option (list N) }.
Record eqn := Eqn { e_in : list eterm; e_out : option eterm }.

Definition t_named (t : eterm) : list N := t_pre t ++ default [] (t_post t).
(** How terms and equations are written. *)
Definition render_term (t : eterm) : str :=
  t_pre t ++ match t_post t with None => [] | Some q => s_dots ++ q end.
Definition render (e : eqn) : str :=
  join s_comma (render_term <$> e_in e) ++ match e_out e with None => [] | Some o => s_arrow ++ render_term o end.

(** Labels after expanding ellipses: a named label, or the k-th broadcast axis counted from the right. *)
Inductive elabel := Named (c : N) | Bcast (k : nat).
Global Instance elabel_eq_dec : EqDecision elabel. Proof. solve_decision. Defined.

(** The labels of the axes of an operand: the ellipsis stands for [m] axes. *)
Definition expand (m : nat) (t : eterm) : list elabel :=
  (Named <$> t_pre t) ++
  match t_post t with None => [] | Some q => (Bcast <$> reverse (seq 0 m)) ++ (Named <$> q) end.
(** The ellipsis of a term covers the axes the named labels leave (none for a scalar). *)
Definition ell_count (t : eterm) (sh : list nat) : nat :=
  match t_post t with None => 0 | Some _ => length sh - length (t_named t) end.
Definition in_labels (e : eqn) (shapes : list (list nat)) : list (list elabel) :=
  zip_with (fun t sh => expand (ell_count t sh) t) (e_in e) shapes.
(** Number of broadcast axes of the whole equation. *)
Definition longest (e : eqn) (shapes : list (list nat)) : nat := max_list' (zip_with ell_count (e_in e) shapes).
(** The output: as written, or broadcast axes first and then the labels occurring exactly once in sorted order. *)
Definition out_labels (e : eqn) (shapes : list (list nat)) : list elabel :=
  match e_out e with
  | Some o => expand (longest e shapes) o
  | None => let named := e_in e ≫= t_named in
            (Bcast <$> reverse (seq 0 (longest e shapes))) ++ (Named <$> sortN (filter (fun c => count c named = 1) named))
  end.

(** An ellipsis needs enough axes (scalars are let through here and rejected with the shapes, C12). *)
Definition fits (t : eterm) (sh : list nat) : Prop :=
  match t_post t with None => True | Some _ => sh = [] \/ length (t_named t) <= length sh end.
(** Labels are not syntax characters. *)
Definition plain_eqn (e : eqn) : Prop :=
  Forall (fun t => Forall plain (t_named t)) (e_in e) /\
  match e_out e with None => True | Some o => Forall plain (t_named o) end.
Record well_formed (e : eqn) (shapes : list (list nat)) : Prop := WellFormed {
  wf_count : length (e_in e) = length shapes;
  wf_fits : Forall2 fits (e_in e) shapes;
  wf_nodup : NoDup (out_labels e shapes);
  wf_known : forall l, l ∈ out_labels e shapes -> exists t, t ∈ in_labels e shapes /\ l ∈ t }.
