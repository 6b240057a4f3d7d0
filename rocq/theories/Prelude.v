(** Python primitives used by the model: exceptions as values, lists, strings.
    Nothing here models /repo code; it models the Python built-ins the code calls. *)
From stdpp Require Export prelude gmap sorting list_numbers.
From Coq Require Export Lia String Ascii.
From Coq Require Import ZifyBool ZifyNat ZifyN.
Global Open Scope list_scope.
Global Open Scope nat_scope.
Notation length := List.length.
Global Unset Suggest Proof Using.

(** Exceptions. *)
(** [NoFuel] is not a Python exception: a loop of the model ran out of its iteration bound. *)
Inductive exn := ValueError | KeyError | IndexError | TypeError | RuntimeError | AttributeError | ImportError | StopIteration | NoFuel.
Inductive res (A : Type) := Ok (a : A) | Err (e : exn).
Arguments Ok {A} _. Arguments Err {A} _.
Global Instance exn_eq_dec : EqDecision exn. Proof. solve_decision. Defined.
Global Instance res_eq_dec `{EqDecision A} : EqDecision (res A). Proof. solve_decision. Defined.

Global Instance res_ret : MRet res := fun A a => Ok a.
Global Instance res_bind : MBind res := fun A B f m => match m with Ok a => f a | Err e => Err e end.
Global Instance res_fmap : FMap res := fun A B f m => match m with Ok a => Ok (f a) | Err e => Err e end.
Definition guard_res (b : bool) (e : exn) : res unit := if b then Ok tt else Err e.
Definition is_Ok {A} (m : res A) : Prop := exists a, m = Ok a.
Definition of_opt {A} (e : exn) (o : option A) : res A := match o with Some a => Ok a | None => Err e end.

Fixpoint mapM_res {A B} (f : A -> res B) (l : list A) : res (list B) :=
  match l with
  | [] => Ok []
  | a :: l' => b ← f a; bs ← mapM_res f l'; Ok (b :: bs)
  end.

Fixpoint foldM_res {A S} (f : S -> A -> res S) (s : S) (l : list A) : res S :=
  match l with [] => Ok s | a :: l' => s' ← f s a; foldM_res f s' l' end.

(** Characters and strings: a Python str is a sequence of code points. *)
Notation char := N (only parsing).
Notation str := (list N) (only parsing).

Definition ch (a : ascii) : N := N_of_ascii a.
Fixpoint lit (s : string) : str :=
  match s with EmptyString => [] | String a s' => N_of_ascii a :: lit s' end.

Definition c_comma : N := 44.   (* , *)
Definition c_dash  : N := 45.   (* - *)
Definition c_gt    : N := 62.   (* > *)
Definition c_dot   : N := 46.   (* . *)
Definition c_space : N := 32.
Definition s_comma : str := [c_comma].
Definition s_arrow : str := [c_dash; c_gt].
Definition s_dots : str := [c_dot; c_dot; c_dot].

(** [c in s] *)
Definition inb (c : N) (s : str) : bool := bool_decide (c ∈ s).
(** [s.count(c)] for a one-character string. *)
Fixpoint count (c : N) (s : str) : nat :=
  match s with [] => 0 | x :: s' => (if decide (x = c) then 1 else 0) + count c s' end.
(** [s.find(c)]: [None] stands for -1. *)
Fixpoint find (c : N) (s : str) : option nat :=
  match s with
  | [] => None
  | x :: s' => if decide (x = c) then Some 0 else S <$> find c s'
  end.

Fixpoint prefixb (p s : str) : bool :=
  match p, s with
  | [], _ => true
  | _ :: _, [] => false
  | a :: p', b :: s' => bool_decide (a = b) && prefixb p' s'
  end.

(** [s.split(sep)] for a non-empty separator: scan left to right, after a match skip [length sep - 1] more. *)
Fixpoint split_aux (sep : str) (skip : nat) (s : str) : list str :=
  match s with
  | [] => [[]]
  | c :: s' =>
    match skip with
    | S k => split_aux sep k s'
    | 0 => if prefixb sep s then [] :: split_aux sep (length sep - 1) s'
           else match split_aux sep 0 s' with h :: t => (c :: h) :: t | [] => [[c]] end
    end
  end.
Definition split (sep s : str) : list str := split_aux sep 0 s.
(** [sep.join(l)] *)
Fixpoint join (sep : str) (l : list str) : str :=
  match l with [] => [] | [x] => x | x :: l' => x ++ sep ++ join sep l' end.
Global Arguments join : simpl never.
(** [s.replace(old,new)] and [s.count(sub)]: both scan exactly like split. *)
Definition replace (old new s : str) : str := join new (split old s).
Definition count_sub (sub s : str) : nat := length (split sub s) - 1.
(** [sub in s] *)
Definition sub_in (sub s : str) : bool := negb (bool_decide (count_sub sub s = 0)).

(** [sorted(l)] on integers / code points. *)
Definition sortN (l : list N) : list N := merge_sort (≤)%N l.
Definition sort_nat (l : list nat) : list nat := merge_sort (≤) l.
(** [sorted(l, reverse=True)] *)
Definition geq (a b : nat) : Prop := b <= a.
Global Instance geq_dec : RelDecision geq := fun a b => decide (b <= a).
Global Instance geq_total : Total geq. Proof. intros a b. unfold geq. lia. Qed.
Global Instance geq_trans : Transitive geq. Proof. intros a b c. unfold geq. lia. Qed.
Definition sort_desc (l : list nat) : list nat := merge_sort geq l.

(** [l.pop(i)] for a non-negative index. *)
Definition pop_at {A} (i : nat) (l : list A) : res (A * list A) :=
  match l !! i with Some x => Ok (x, delete i l) | None => Err IndexError end.
(** [[l.pop(i) for i in is]] together with what is left of [l]. *)
Fixpoint pops {A} (is_ : list nat) (l : list A) : res (list A * list A) :=
  match is_ with
  | [] => Ok ([], l)
  | i :: is' => '(x, l') ← pop_at i l; '(xs, l'') ← pops is' l'; Ok (x :: xs, l'')
  end.

Fixpoint prod_list (l : list nat) : nat := match l with [] => 1 | x :: l' => x * prod_list l' end.
Definition max_list' (l : list nat) : nat := foldr Nat.max 0 l.

(** Basic facts. *)
Lemma inb_true c s : inb c s = true <-> c ∈ s.
Proof. unfold inb. by rewrite bool_decide_eq_true. Qed.
Lemma inb_false c s : inb c s = false <-> c ∉ s.
Proof. unfold inb. by rewrite bool_decide_eq_false. Qed.

Lemma count_app c s t : count c (s ++ t) = count c s + count c t.
Proof. induction s as [|x s IH]; simpl; [done|]. rewrite IH. lia. Qed.
Lemma count_zero c s : count c s = 0 <-> c ∉ s.
Proof.
  induction s as [|x s IH]; simpl; [split; [by intros _ ?%elem_of_nil|done]|].
  rewrite not_elem_of_cons. destruct (decide (x = c)); [naive_solver lia|].
  rewrite Nat.add_0_l, IH. naive_solver.
Qed.
Lemma count_pos c s : 0 < count c s <-> c ∈ s.
Proof.
  destruct (decide (c ∈ s)) as [H|H].
  - split; [done|]. intros _. destruct (count c s) eqn:E; [|lia]. by apply count_zero in E.
  - rewrite <-count_zero in H. rewrite H. split; [lia|]. intros Hc. apply count_zero in H. done.
Qed.
Lemma count_NoDup s : NoDup s <-> forall c, count c s <= 1.
Proof.
  induction s as [|x s IH]; simpl.
  - split; [intros _ ?; lia|constructor].
  - rewrite NoDup_cons, IH. split.
    + intros [Hx Hs] c. destruct (decide (x = c)) as [->|]; [|apply Hs].
      apply count_zero in Hx. rewrite Hx. lia.
    + intros H. split.
      * apply count_zero. specialize (H x). rewrite decide_True in H by done. lia.
      * intros c. specialize (H c). lia.
Qed.
Lemma count_perm c s t : s ≡ₚ t -> count c s = count c t.
Proof. induction 1; simpl; lia. Qed.

Lemma find_None c s : find c s = None <-> c ∉ s.
Proof.
  induction s as [|x s IH]; simpl; [split; [by intros _ ?%elem_of_nil|done]|].
  rewrite not_elem_of_cons. destruct (decide (x = c)) as [->|]; [naive_solver|].
  rewrite fmap_None, IH. naive_solver.
Qed.
Lemma find_Some c s i : find c s = Some i <-> s !! i = Some c /\ c ∉ take i s.
Proof.
  revert i. induction s as [|x s IH]; intros i; simpl.
  - split; [done|]. intros [H _]. done.
  - destruct (decide (x = c)) as [->|Hne].
    + split.
      * intros [= <-]. split; [done|]. apply not_elem_of_nil.
      * intros [H1 H2]. destruct i as [|i]; [done|]. simpl in H2. set_solver.
    + rewrite fmap_Some. split.
      * intros (j & Hj & ->). apply IH in Hj as [H1 H2]. split; [done|]. simpl. set_solver.
      * intros [H1 H2]. destruct i as [|i]; [simpl in H1; congruence|].
        exists i. split; [|done]. apply IH. simpl in *. set_solver.
Qed.
Lemma find_lookup c s i : find c s = Some i -> s !! i = Some c.
Proof. rewrite find_Some. naive_solver. Qed.
Lemma find_elem c s : c ∈ s -> exists i, find c s = Some i /\ s !! i = Some c.
Proof.
  intros H. destruct (find c s) as [i|] eqn:E.
  - exists i. split; [done|]. by apply find_lookup.
  - by apply find_None in E.
Qed.
Lemma find_NoDup c s i : NoDup s -> s !! i = Some c -> find c s = Some i.
Proof.
  intros Hnd Hi. apply find_Some. split; [done|]. intros (j & Hj)%elem_of_list_lookup.
  rewrite lookup_take_Some in Hj. destruct Hj as [Hj Hlt].
  pose proof (NoDup_lookup _ _ _ _ Hnd Hi Hj). lia.
Qed.

Lemma Ok_inj {A} (x y : A) : Ok x = Ok y -> x = y.
Proof. congruence. Qed.
Lemma bind_Ok {A B} (m : res A) (f : A -> res B) b :
  (m ≫= f) = Ok b <-> exists a, m = Ok a /\ f a = Ok b.
Proof. destruct m; simpl; naive_solver. Qed.

Lemma prefixb_app p s : prefixb p (p ++ s) = true.
Proof. induction p as [|a p IH]; simpl; [done|]. by rewrite bool_decide_true, IH by done. Qed.
Lemma prefixb_true p s : prefixb p s = true <-> exists r, s = p ++ r.
Proof.
  revert s. induction p as [|a p IH]; intros s; simpl.
  - split; [eauto|done].
  - destruct s as [|b s]; [split; [done|naive_solver]|].
    rewrite andb_true_iff, bool_decide_eq_true, IH. naive_solver.
Qed.

Lemma split_aux_ne sep k s : split_aux sep k s <> [].
Proof.
  revert k. induction s as [|c s IH]; intros k; simpl; [done|].
  destruct k as [|k]; [|apply IH]. case_match; [done|].
  destruct (split_aux sep 0 s) eqn:E; [done|done].
Qed.

Lemma join_cons sep x l : l <> [] -> join sep (x :: l) = x ++ sep ++ join sep l.
Proof. destruct l; done. Qed.

(** Split undoes join when no piece interferes with the separator: single-character separators. *)
Lemma split1_no c s : c ∉ s -> split [c] s = [s].
Proof.
  unfold split. induction s as [|x s IH]; simpl; intros H; [done|].
  apply not_elem_of_cons in H as [H1 H2].
  rewrite bool_decide_false by done. simpl. by rewrite IH.
Qed.
Lemma split1_app c s t : c ∉ s -> split [c] (s ++ c :: t) = s :: split [c] t.
Proof.
  unfold split. induction s as [|x s IH]; simpl; intros H.
  - rewrite bool_decide_true by done. simpl. done.
  - apply not_elem_of_cons in H as [H1 H2].
    rewrite bool_decide_false by done. simpl. by rewrite IH.
Qed.
Lemma split1_join c l : l <> [] -> Forall (fun s => c ∉ s) l -> split [c] (join [c] l) = l.
Proof.
  intros Hne Hl. induction Hl as [|s l Hs Hl IH]; [done|].
  destruct l as [|t l]; [by apply split1_no|].
  rewrite join_cons by done. cbn [app]. rewrite split1_app by done. by rewrite IH.
Qed.
Lemma join_split1 c s : join [c] (split [c] s) = s.
Proof.
  unfold split. induction s as [|x s IH]; simpl; [done|].
  case_bool_decide as E; simpl.
  - subst x. rewrite join_cons by apply split_aux_ne. simpl. by rewrite IH.
  - destruct (split_aux [c] 0 s) as [|h t] eqn:E2; [by apply split_aux_ne in E2|].
    rewrite <-IH. destruct t; [done|]. unfold join; done.
Qed.
Lemma split1_pieces c s : Forall (fun p => c ∉ p) (split [c] s).
Proof.
  unfold split. induction s as [|x s IH]; simpl.
  - repeat constructor. apply not_elem_of_nil.
  - case_bool_decide as E; simpl.
    + constructor; [apply not_elem_of_nil|done].
    + destruct (split_aux [c] 0 s) as [|h t] eqn:E2; [by apply split_aux_ne in E2|].
      inversion_clear IH. constructor; [|done]. apply not_elem_of_cons. auto.
Qed.
