(** Threads see their own contexts. *)
From Verif Require Import Prelude Einsum Parser Helpers Contract Sharing SharingFacts Threads ThreadSpec.

Section ThreadFacts.
  Context {K : semiring}.
  Variable ord : gset N -> list N.
  Variable lib : str -> backend K.
  Variable alloc : nat -> gset nat -> nat.
  Variable keep : nat -> nat -> bool.
  Variable conv : str -> tensor K -> res (tensor K).
  Notation do_ev := (do_ev ord lib alloc keep conv).
  Notation answers := (answers ord lib alloc keep conv).

  (** ** Operations do not touch the stacks. *)
  Definition stays {A} (w : world K) (p : world K * A) : Prop := w_stacks p.1 = w_stacks w.
  Lemma sbind_stays {A B} w (p : @st K A) (f : world K -> A -> @st K B) : stays w p -> (forall w' a, w_stacks w' = w_stacks w -> stays w (f w' a)) -> stays w (sbind p f).
  Proof. destruct p as [w' [a|e]]; intros H1 H2; [by apply H2|done]. Qed.
  Lemma lift_stays {A B} w w' (r : res A) (f : A -> @st K B) : w_stacks w' = w_stacks w -> (forall a, stays w (f a)) -> stays w (lift w' r f).
  Proof. destruct r; intros H1 H2; [apply H2|done]. Qed.
  Lemma plain_stays w w' fn ids : w_stacks w' = w_stacks w -> stays w (plain_call alloc w' fn ids).
  Proof. intros H. unfold plain_call. by apply lift_stays. Qed.
  Lemma memoize_stays w w' c k fn ids : w_stacks w' = w_stacks w -> stays w (memoize alloc w' c k fn ids).
  Proof. intros H. unfold memoize. destruct (_ !! k); [done|]. apply sbind_stays; [by apply plain_stays|done]. Qed.
  Lemma op_stays w w' tid roots save kf fn ids : w_stacks w' = w_stacks w -> stays w (cached_op alloc keep w' tid roots save kf fn ids).
  Proof.
    intros H. unfold cached_op. set (w0 := collect keep w' (ids ++ roots)). assert (H0 : w_stacks w0 = w_stacks w) by done. clearbody w0.
    unfold currently_sharing. case_bool_decide as Hs; cbn [negb]; [|by apply plain_stays]. apply lift_stays; [done|]. intros k.
    apply sbind_stays.
    - unfold get_sharing_cache. destruct Hs as [[|c l] ->]; done.
    - intros w1 c H1. destruct save; by apply memoize_stays.
  Qed.
  Lemma step_stays w w' tid b ops c : w_stacks w' = w_stacks w -> stays w (sh_step ord lib alloc keep w' tid b ops c).
  Proof.
    intros H. unfold sh_step. apply lift_stays; [done|]. intros [tmp rest]. apply sbind_stays; [|done].
    destruct (use_tensordot _ _); [|rewrite einsum_op; by apply op_stays].
    do 2 (apply lift_stays; [done|]; intros [? ?]). apply lift_stays; [done|]. intros [x y]. apply lift_stays; [done|]. intros axes.
    apply sbind_stays; [rewrite tensordot_op; by apply op_stays|]. intros w1 v H1. case_decide; [done|].
    apply lift_stays; [done|]. intros perm. rewrite transpose_op. by apply op_stays.
  Qed.
  Lemma loop_stays w tid b cl : forall w' ops, w_stacks w' = w_stacks w -> stays w (sh_loop ord lib alloc keep w' tid b ops cl).
  Proof. induction cl as [|c cl IH]; intros w' ops H; [done|]. cbn [sh_loop]. apply sbind_stays; [by apply step_stays|]. intros w1 ops1 H1. by apply IH. Qed.
  Lemma contract_stays w w' tid b use_blas opt mem s ids : w_stacks w' = w_stacks w -> stays w (sh_contract ord lib alloc keep w' tid b use_blas opt mem s ids).
  Proof.
    intros H. unfold sh_contract. destruct opt; [rewrite einsum_op; by apply op_stays|..]; (apply lift_stays; [done|]; intros info; unfold sh_core;
      apply sbind_stays; [by apply loop_stays|]; intros w1 l H1; by apply lift_stays).
  Qed.
  Lemma hold_stays w (p : @st K nat) : stays w p -> w_stacks (hold_result p) = w_stacks w.
  Proof. destruct p as [w' [r|e]]; done. Qed.
  Lemma act_stays w a : match a with WEnter _ _ | WExit _ | WForget _ => True | _ => w_stacks (act ord lib alloc keep conv w a) = w_stacks w end.
  Proof.
    unfold act. destruct (negb _); [by destruct a|]. destruct a; try done; apply hold_stays.
    - rewrite transpose_op. by apply op_stays.
    - rewrite tensordot_op. by apply op_stays.
    - rewrite einsum_op. by apply op_stays.
    - by apply contract_stays.
    - rewrite convert_op. by apply op_stays.
  Qed.

  (** ** One thread against the others. *)
  Notation stack w tid := (w_stacks w !! tid).
  Lemma other_ev w t tid e : t <> tid -> stack (do_ev w t e).1 tid = stack w tid.
  Proof.
    intros Hne. destruct e as [c| | | |a]; cbn [Threads.do_ev].
    - cbn [fst]. unfold add_sharing_cache, set_stacks. cbn [w_stacks]. by rewrite lookup_insert_ne.
    - unfold remove_sharing_cache. destruct (stack w t) as [[|c [|c2 l]]|]; cbn [fst w_stacks set_stacks]; [done|by rewrite lookup_delete_ne|by rewrite lookup_insert_ne..].
    - done.
    - unfold get_sharing_cache. destruct (stack w t) as [[|c l]|]; cbn [fst w_stacks set_stacks]; [done|done|by rewrite lookup_insert_ne].
    - cbn [fst]. pose proof (act_stays w a) as H. destruct a; try done; by rewrite H.
  Qed.
  Definition as_stack (ctx : list nat) : option (list nat) := match ctx with [] => None | _ => Some ctx end.
  (** What one thread's stack goes through, alone. *)
  Definition solo (s : option (list nat)) (e : ev K) : option (list nat) * answer :=
    match e with
    | EEnter c => (Some (c :: default [] s), ADone (Ok tt))
    | EExit => match s with None => (Some [], ADone (Err IndexError)) | Some [] => (Some [], ADone (Err IndexError)) | Some [_] => (None, ADone (Ok tt)) | Some (_ :: l) => (Some l, ADone (Ok tt)) end
    | EAsk => (s, ABool (bool_decide (is_Some s)))
    | EGet => match s with None => (Some [], ACache (Err IndexError)) | Some [] => (Some [], ACache (Err IndexError)) | Some (c :: l) => (Some (c :: l), ACache (Ok c)) end
    | EDo a => (s, ADone (Ok tt))
    end.
  Lemma solo_ev w tid e : solo (stack w tid) e = (stack (do_ev w tid e).1 tid, (do_ev w tid e).2).
  Proof.
    destruct e as [c| | | |a]; cbn [Threads.do_ev solo].
    - cbn [fst snd]. unfold add_sharing_cache, set_stacks. cbn [w_stacks]. by rewrite lookup_insert.
    - unfold remove_sharing_cache. destruct (stack w tid) as [[|c [|c2 l]]|] eqn:E; cbn [fst snd w_stacks set_stacks]; rewrite ?lookup_insert, ?lookup_delete, ?E; done.
    - done.
    - unfold get_sharing_cache. destruct (stack w tid) as [[|c l]|] eqn:E; cbn [fst snd w_stacks set_stacks]; rewrite ?lookup_insert, ?E; done.
    - cbn [fst snd]. pose proof (act_stays w a) as H. destruct a; try done; by rewrite H.
  Qed.
  Fixpoint solo_run (s : option (list nat)) (l : list (ev K)) : option (list nat) * list answer :=
    match l with [] => (s, []) | e :: l => let '(s, x) := solo s e in let '(s, xs) := solo_run s l in (s, x :: xs) end.
  Lemma solo_run_app s l l' : solo_run s (l ++ l') = let '(s1, x1) := solo_run s l in let '(s2, x2) := solo_run s1 l' in (s2, x1 ++ x2).
  Proof.
    revert s. induction l as [|e l IH]; intros s; simpl; [by destruct (solo_run s l')|]. destruct (solo s e) as [s1 x]. rewrite IH.
    destruct (solo_run s1 l) as [s2 x2]. by destruct (solo_run s2 l').
  Qed.
  Lemma answers_solo tid sched : forall w, of_thread tid (answers w sched) = (solo_run (stack w tid) (of_thread tid sched)).2.
  Proof.
    unfold of_thread. induction sched as [|[t e] sched IH]; intros w; [done|]. cbn [Threads.answers]. destruct (do_ev w t e) as [w1 x] eqn:E.
    destruct (decide (t = tid)) as [->|Hne].
    - rewrite !filter_cons_True by done. rewrite !fmap_cons. cbn [snd solo_run]. rewrite solo_ev, E. cbn [fst snd]. specialize (IH w1). destruct (solo_run _ _) as [s xs]. simpl in *. by rewrite IH.
    - rewrite !filter_cons_False by done. rewrite IH. f_equal. rewrite <-(other_ev w t tid e Hne), E. done.
  Qed.
  Lemma solo_told p : forall ctx, scoped ctx p -> solo_run (as_stack ctx) (events ctx p).1 = (as_stack ctx, told ctx p).
  Proof.
    induction p as [|p IHp q IHq|c p IH| |p IH| | |a]; intros ctx Hs; simpl in *; try done.
    - destruct Hs as [Hp Hq]. specialize (IHp ctx Hp). destruct (events ctx p) as [l [|]]; [done|]. simpl in *. specialize (IHq ctx (Hq eq_refl)).
      destruct (events ctx q) as [l' r]. simpl in *. by rewrite solo_run_app, IHp, IHq.
    - specialize (IH (c :: ctx) Hs). destruct (events (c :: ctx) p) as [l r]. simpl in *. rewrite solo_run_app.
      assert (E : Some (c :: default [] (as_stack ctx)) = Some (c :: ctx)) by by destruct ctx. rewrite E, IH. simpl. by destruct ctx.
    - by apply IH.
    - by destruct ctx.
    - by destruct ctx.
  Qed.
  Lemma solo_length s l : length (solo_run s l).2 = length l.
  Proof. revert s. induction l as [|e l IH]; intros s; [done|]. simpl. destruct (solo s e) as [s1 x]. specialize (IH s1). destruct (solo_run s1 l). simpl in *. by rewrite IH. Qed.
  Lemma threads_told w tid p sched : stack w tid = None -> scoped [] p -> of_thread tid sched `prefix_of` (events [] p).1 ->
    of_thread tid (answers w sched) = take (length (of_thread tid sched)) (told [] p).
  Proof.
    intros Hw Hs [l Hl]. rewrite answers_solo, Hw. pose proof (solo_told p [] Hs) as H. simpl in H. rewrite Hl, solo_run_app in H.
    pose proof (solo_length None (of_thread tid sched)) as Hlen. destruct (solo_run None (of_thread tid sched)) as [s1 x1]. simpl in *.
    destruct (solo_run s1 l) as [s2 x2]. injection H as _ <-. rewrite <-Hlen. by rewrite take_app.
  Qed.
End ThreadFacts.
