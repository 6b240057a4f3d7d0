(** Threads entering and leaving sharing contexts: /repo/opt_einsum/sharing.py 30-81 under any schedule. *)
From Verif Require Import Prelude Einsum Parser Helpers Contract Sharing.

Section Threads.
  Context {K : semiring}.
  Variable ord : gset N -> list N.
  Variable lib : str -> backend K.
  Variable alloc : nat -> gset nat -> nat.
  Variable keep : nat -> nat -> bool.
  Variable conv : str -> tensor K -> res (tensor K).

  (** What a thread does: the two halves of [with shared_intermediates(c)] (lines 75-77 before, 80-81 after the body), the two
      questions (33-40), and anything else ([EDo], actions other than entering, leaving and forgetting a cache). *)
  Inductive ev := EEnter (c : nat) | EExit | EAsk | EGet | EDo (a : action K).
  Inductive answer := ADone (r : res unit) | ABool (b : bool) | ACache (r : res nat).
  (** [c] is the name of the dictionary entered, made if it does not exist yet. *)
  Definition do_ev (w : world K) (tid : nat) (e : ev) : world K * answer :=
    match e with
    | EEnter c => (add_sharing_cache (set_cache w c (get_cache w c)) tid c, ADone (Ok tt))
    | EExit => let '(w, r) := remove_sharing_cache w tid in (w, ADone r)
    | EAsk => (w, ABool (currently_sharing w tid))
    | EGet => let '(w, r) := get_sharing_cache w tid in (w, ACache r)
    | EDo a => (match a with WEnter _ _ | WExit _ | WForget _ => w | _ => act ord lib alloc keep conv w a end, ADone (Ok tt))
    end.
  (** The answers of a schedule: a list of (thread, event) in the order they happen. *)
  Fixpoint answers (w : world K) (sched : list (nat * ev)) : list (nat * answer) :=
    match sched with [] => [] | (tid, e) :: sched => let '(w, x) := do_ev w tid e in (tid, x) :: answers w sched end.
End Threads.
Arguments ev _ : clear implicits.
