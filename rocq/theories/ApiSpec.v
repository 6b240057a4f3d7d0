(** Specification for Api.v. *)
From Verif Require Import Prelude Spec ParseSpec Api.

(** ** Interleaved equations: labels are integers, a term has at most one Ellipsis. *)
Record iterm := ITerm { i_pre : list Z; i_post : option (list Z) }.
Record ieqn := IEqn { ie_in : list iterm; ie_out : option iterm }.
(** The subscript list as the caller writes it; [None] is Ellipsis. *)
Definition isub (t : iterm) : list (option Z) := (Some <$> i_pre t) ++ match i_post t with None => [] | Some q => None :: (Some <$> q) end.
(** The same with names for the labels. *)
Definition named_term (g : Z -> N) (t : iterm) : eterm := ETerm (g <$> i_pre t) (fmap (M:=option) (fmap (M:=list) g) (i_post t)).
Definition named_eqn (g : Z -> N) (e : ieqn) : eqn := Eqn (fmap (M:=list) (named_term g) (ie_in e)) (fmap (M:=option) (named_term g) (ie_out e)).
Definition iterm_labels (t : iterm) : list Z := i_pre t ++ default [] (i_post t).
Definition ieqn_labels (e : ieqn) : list Z := (ie_in e ≫= iterm_labels) ++ match ie_out e with None => [] | Some o => iterm_labels o end.

(** ** Nested sequences: [x] is a rectangular nested sequence of base values with the dimensions [sh]. *)
Inductive rectangular : pyval -> list nat -> Prop :=
| rect_base : rectangular PBase []
| rect_seq l sh : Forall (fun y => rectangular y sh) l -> rectangular (PSeq l) (length l :: sh).

(** ** Brackets: reading the terms of a formatted equation, each with a mark whether it lies inside brackets. *)
Fixpoint scan (inside seen : bool) (cur : str) (s : str) : list (bool * str) :=
  match s with
  | [] => [(seen, cur)]
  | c :: s =>
    if decide (c = c_open) then scan true true cur s
    else if decide (c = c_close) then scan false seen cur s
    else if decide (c = c_comma) then (seen, cur) :: scan inside inside [] s
    else scan inside seen (cur ++ [c]) s
  end.
Definition no_brackets (s : str) : Prop := c_open ∉ s /\ c_close ∉ s.
Definition drop_brackets (s : str) : str := filter (fun c => c <> c_open /\ c <> c_close) s.

(** What numpy documents of einsum, over the 52 letters: implicit output, ellipsis and spaces included. *)
From Verif Require Import Einsum Contract Spec ParseProof.
Definition documented_einsum {K : semiring} (B : backend K) : Prop :=
  forall (e : eqn) (s : str) (ops : list (tensor K)),
    e_in e <> [] -> Forall (fun c => c ∈ letters) (named_of e) -> filter (.≠ c_space) s = render e -> well_formed e (shape <$> ops) ->
    good (zip (in_labels e (shape <$> ops)) ops) ->
    exists T, b_einsum B s ops = Ok T /\ T ≡ₜ einsum (zip (in_labels e (shape <$> ops)) ops) (out_labels e (shape <$> ops)).
(** Equations without ellipsis. *)
Definition no_ellipsis (e : eqn) : Prop := Forall (fun t => t_post t = None) (e_in e) /\ match e_out e with None => True | Some o => t_post o = None end.
