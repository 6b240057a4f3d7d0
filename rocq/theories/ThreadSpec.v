(** What threads should see: programs with nested [with] blocks and exceptions. *)
From Verif Require Import Prelude Einsum Parser Helpers Contract Sharing Threads.

Section ThreadSpec.
  Context {K : semiring}.
  (** [PWith c p] is [with shared_intermediates(c): p]; [PTry p] is [try: p except: pass]. *)
  Inductive prog := PSkip | PSeq (p q : prog) | PWith (c : nat) (p : prog) | PRaise | PTry (p : prog) | PAsk | PGet | PDo (a : action K).
  (** The events of a program in contexts [ctx] (innermost first) and whether it raises: a [with] block is left however its body ends,
      an exception skips what follows, asking for the cache outside all contexts raises. *)
  Fixpoint events (ctx : list nat) (p : prog) : list (ev K) * bool :=
    match p with
    | PSkip => ([], false)
    | PSeq p q => match events ctx p with (l, true) => (l, true) | (l, false) => let '(l', r) := events ctx q in (l ++ l', r) end
    | PWith c p => let '(l, r) := events (c :: ctx) p in (EEnter c :: l ++ [EExit], r)
    | PRaise => ([], true)
    | PTry p => ((events ctx p).1, false)
    | PAsk => ([EAsk], false)
    | PGet => ([EGet], match ctx with [] => true | _ => false end)
    | PDo a => ([EDo a], false)
    end.
  (** What the program should be told: it is sharing inside a [with] block, and the cache is that of the innermost one. *)
  Fixpoint told (ctx : list nat) (p : prog) : list answer :=
    match p with
    | PSkip | PRaise => []
    | PSeq p q => if (events ctx p).2 then told ctx p else told ctx p ++ told ctx q
    | PWith c p => ADone (Ok tt) :: told (c :: ctx) p ++ [ADone (Ok tt)]
    | PTry p => told ctx p
    | PAsk => [ABool (match ctx with [] => false | _ => true end)]
    | PGet => [ACache (match ctx with [] => Err IndexError | c :: _ => Ok c end)]
    | PDo a => [ADone (Ok tt)]
    end.
  (** The cache is asked for inside contexts only. *)
  Fixpoint scoped (ctx : list nat) (p : prog) : Prop :=
    match p with
    | PSeq p q => scoped ctx p /\ ((events ctx p).2 = false -> scoped ctx q)
    | PWith c p => scoped (c :: ctx) p
    | PTry p => scoped ctx p
    | PGet => ctx <> []
    | _ => True
    end.
  Definition of_thread {A} (tid : nat) (l : list (nat * A)) : list A := (filter (fun x => x.1 = tid) l).*2.
  (** The state after a schedule. *)
  Definition after ord lib alloc keep conv (w : world K) (sched : list (nat * ev K)) : world K :=
    foldl (fun w x => (do_ev ord lib alloc keep conv w x.1 x.2).1) w sched.
  (** What the dictionary [c] has under [k]. *)
  Definition entry (w : world K) (c : nat) (k : key) : option nat := w_caches w !! c ≫= fun m : cache => m !! k.
End ThreadSpec.
Arguments prog _ : clear implicits.
