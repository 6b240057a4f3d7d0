(** format_const_einsum_str only adds brackets. *)
From Verif Require Import Prelude Parser StringFacts ParserFacts Spec ParseSpec Api ApiSpec.

Definition R (s : str) : str := replace s_merge s_comma s.
Lemma R_nil : R [] = [].
Proof. reflexivity. Qed.
Lemma R_char c s : prefixb s_merge (c :: s) = false -> R (c :: s) = c :: R s.
Proof.
  intros H. unfold R, replace, split. cbn [split_aux]. rewrite H. pose proof (split_aux_ne s_merge 0 s) as Hne.
  destruct (split_aux s_merge 0 s) as [|h t]; [done|]. by destruct t.
Qed.
Lemma R_merge s : R (s_merge ++ s) = s_comma ++ R s.
Proof.
  unfold R, replace, split. assert (split_aux s_merge 0 (s_merge ++ s) = [] :: split_aux s_merge 0 s) as ->.
  { cbn [split_aux app s_merge]. change (c_close :: c_comma :: c_open :: s) with (s_merge ++ s). by rewrite prefixb_app. }
  rewrite join_cons by apply split_aux_ne. done.
Qed.
Lemma R_plain x s : c_close ∉ x -> R (x ++ s) = x ++ R s.
Proof.
  induction x as [|c x IH]; intros H; [done|]. apply not_elem_of_cons in H as [H1 H2]. simpl app. rewrite R_char, IH; [done|done|]. simpl. by rewrite bool_decide_false.
Qed.
Lemma R_close s : prefixb [c_comma; c_open] s = false -> R (c_close :: s) = c_close :: R s.
Proof. intros H. apply R_char. cbn [prefixb s_merge]. by rewrite bool_decide_true. Qed.

Notation marked := (list (bool * str)).
(** The joined terms before merging; [o]: the first bracket is already open. *)
Fixpoint joined (o : bool) (ts : marked) : str :=
  match ts with
  | [] => []
  | (f, t) :: ts => (if f && negb o then [c_open] else []) ++ t ++ (if f then [c_close] else []) ++ match ts with [] => [] | _ => c_comma :: joined false ts end
  end.
Fixpoint merged (o : bool) (ts : marked) : str :=
  match ts with
  | [] => []
  | (f, t) :: ts => (if f && negb o then [c_open] else []) ++ t ++
      match ts with
      | [] => if f then [c_close] else []
      | (f2, _) :: _ => if f && f2 then c_comma :: merged true ts else (if f then [c_close] else []) ++ c_comma :: merged false ts
      end
  end.
Definition clean (ts : marked) : Prop := Forall (fun p : bool * str => no_brackets p.2 /\ c_comma ∉ p.2) ts.
Lemma joined_merged ts tail o : clean ts -> no_brackets tail -> ts <> [] -> (o = true -> exists t ts', ts = (true, t) :: ts') ->
  R (joined o ts ++ tail) = merged o ts ++ tail.
Proof.
  intros Hc [Ht1 Ht2]. revert o. induction Hc as [|[f t] ts [[H1 H2] H3] Hc IH]; intros o Hne Ho; [done|]. cbn [snd] in *.
  assert (Hr : R tail = tail) by (rewrite <-(app_nil_r tail) at 1; rewrite R_plain by done; by rewrite R_nil, app_nil_r).
  cbn [joined merged]. rewrite <-!app_assoc. rewrite R_plain by (destruct (f && negb o); set_solver). f_equal. rewrite R_plain by done. f_equal.
  destruct ts as [|[f2 t2] ts].
  - rewrite app_nil_l. destruct f; [|done]. simpl app. rewrite R_close, Hr; [done|]. destruct tail as [|c [|c2 tail]]; simpl; [done|by rewrite andb_false_r|].
    rewrite (bool_decide_false (c_open = c2)); [by rewrite andb_false_r|]. intros <-. set_solver.
  - destruct f; simpl andb; [destruct f2|].
    + cbn [app joined]. change (negb false) with true. cbn [andb app]. change (c_close :: c_comma :: c_open :: ?x) with (s_merge ++ x).
      rewrite R_merge. unfold s_comma. cbn [app]. f_equal. apply (IH true); [done|eauto].
    + simpl app. rewrite R_close.
      * f_equal. change (c_comma :: ?x) with ([c_comma] ++ x). rewrite R_plain by set_solver. simpl app. f_equal. by apply (IH false).
      * cbn [prefixb]. rewrite bool_decide_true by done. cbn [andb joined app]. inversion Hc as [|? ? [[G1 G2] G3] Hc']; subst. cbn [snd] in *.
        destruct t2 as [|c t2]; cbn [app].
        -- destruct ts as [|p ts]; cbn [app]; [destruct tail as [|c tail]; [done|cbn [prefixb]; rewrite bool_decide_false; [done|set_solver]]|done].
        -- rewrite bool_decide_false; [done|set_solver].
    + cbn [app]. change (c_comma :: ?x) with ([c_comma] ++ x). rewrite R_plain by set_solver. simpl app. f_equal. by apply (IH false).
Qed.
Lemma drop_plain x : no_brackets x -> drop_brackets x = x.
Proof.
  intros [H1 H2]. induction x as [|c x IH]; [done|]. apply not_elem_of_cons in H1 as [H1 H1'], H2 as [H2 H2'].
  unfold drop_brackets. rewrite filter_cons_True by done. f_equal. by apply IH.
Qed.
Lemma drop_app x y : drop_brackets (x ++ y) = drop_brackets x ++ drop_brackets y.
Proof. apply filter_app. Qed.
Lemma drop_merged o ts : clean ts -> drop_brackets (merged o ts) = join s_comma ts.*2.
Proof.
  intros Hc. revert o. induction Hc as [|[f t] ts [H1 H3] Hc IH]; intros o; [done|]. cbn [snd] in *. cbn [merged]. rewrite !drop_app, (drop_plain t) by done.
  assert (drop_brackets (if f && negb o then [c_open] else []) = []) as -> by (by destruct (f && negb o)). rewrite app_nil_l, fmap_cons. cbn [snd].
  destruct ts as [|[f2 t2] ts]; [destruct f; cbn [fmap list_fmap]; by rewrite app_nil_r|].
  rewrite join_cons by done. f_equal. destruct (f && f2).
  - change (c_comma :: ?x) with (s_comma ++ x). rewrite drop_app, IH. done.
  - change (c_comma :: ?x) with (s_comma ++ x). rewrite !drop_app, IH. by destruct f.
Qed.
Lemma scan_plain i s cur t r : no_brackets t -> c_comma ∉ t -> scan i s cur (t ++ r) = scan i s (cur ++ t) r.
Proof.
  revert cur. induction t as [|c t IH]; intros cur [H1 H2] H3; [by rewrite app_nil_r|]. apply not_elem_of_cons in H1 as [H1 H1'], H2 as [H2 H2'], H3 as [H3 H3'].
  simpl. rewrite !decide_False by done. rewrite IH by done. by rewrite <-app_assoc.
Qed.
Lemma scan_merged o ts : clean ts -> ts <> [] -> (o = true -> exists t ts', ts = (true, t) :: ts') -> scan o o [] (merged o ts) = ts.
Proof.
  intros Hc. revert o. induction Hc as [|[f t] ts [H1 H3] Hc IH]; intros o Hne Ho; [done|]. cbn [snd] in *. cbn [merged].
  assert (Hopen : forall r, scan o o [] ((if f && negb o then [c_open] else []) ++ t ++ r) = scan (f || o) f t r).
  { intros r. destruct o; [destruct (Ho eq_refl) as (? & ? & [= -> -> ->])|]; [|destruct f]; simpl; by rewrite scan_plain. }
  rewrite Hopen. destruct ts as [|[f2 t2] ts].
  - by destruct f.
  - destruct f; [destruct f2|].
    + simpl andb. cbn [orb scan]. rewrite !decide_False by done. rewrite decide_True by done. f_equal. apply IH; [done|eauto].
    + simpl andb. cbn [orb app scan]. rewrite decide_False, decide_True by done. cbn [scan]. rewrite !decide_False, decide_True by done. f_equal. by apply IH.
    + simpl andb. assert (o = false) as -> by (destruct o; [by destruct (Ho eq_refl) as (? & ? & [=])|done]). cbn [orb app scan]. rewrite !decide_False, decide_True by done. f_equal. by apply IH.
Qed.
Lemma joined_wrap (P : nat -> bool) (terms : list str) : terms <> [] ->
  join s_comma (imap (fun k t => if P k then [c_open] ++ t ++ [c_close] else t) terms) = joined false (imap (fun k t => (P k, t)) terms).
Proof.
  revert P. induction terms as [|t ts IH]; intros P Hne; [done|]. rewrite !imap_cons. cbn [joined].
  assert (Hw : forall x, (if P 0 then [c_open] ++ t ++ [c_close] else t) ++ x =
    (if P 0 && negb false then [c_open] else []) ++ t ++ (if P 0 then [c_close] else []) ++ x).
  { intros x. destruct (P 0); simpl; by rewrite <-?app_assoc. }
  destruct ts as [|t2 ts]; [cbn [imap]; rewrite <-Hw, app_nil_r; done|].
  specialize (IH (P ∘ S) ltac:(done)). rewrite imap_cons in *. rewrite join_cons by done. rewrite Hw. do 3 f_equal. unfold s_comma. simpl app. f_equal. exact IH.
Qed.
Lemma elem_of_split1 c s t x : t ∈ split [c] s -> x ∈ t -> x ∈ s.
Proof.
  revert t. unfold split. induction s as [|y s IH]; intros t Ht Hx; simpl in Ht.
  - apply elem_of_list_singleton in Ht as ->. by apply elem_of_nil in Hx.
  - case_bool_decide; simpl in Ht.
    + apply elem_of_cons in Ht as [-> |Ht]; [by apply elem_of_nil in Hx|]. right. by eapply IH.
    + pose proof (split_aux_ne [c] 0 s) as Hn. destruct (split_aux [c] 0 s) as [|h l]; [done|]. apply elem_of_cons in Ht as [-> |Ht].
      * apply elem_of_cons in Hx as [-> |Hx]; [by left|]. right. eapply IH; [by left|done].
      * right. eapply IH; [by right|done].
Qed.
Lemma format_shape (lhs tail : str) (constants : list nat) : no_brackets lhs -> no_brackets tail ->
  let ts := imap (fun i t => (bool_decide (i ∈ constants), t)) (split s_comma lhs) in
  clean ts /\ ts.*2 = split s_comma lhs /\ ts <> [] /\
  replace s_merge s_comma (join s_comma (wrap_terms constants (split s_comma lhs)) ++ tail) = merged false ts ++ tail.
Proof.
  intros [Hl1 Hl2] Ht ts. assert (Hne : split s_comma lhs <> []) by apply split_aux_ne.
  assert (Hts2 : ts.*2 = split s_comma lhs).
  { unfold ts. rewrite fmap_imap. rewrite <-(list_fmap_id (split s_comma lhs)) at 2. by rewrite <-(imap_const id). }
  assert (Hcl : clean ts).
  { apply Forall_forall. intros [f t] Hft. assert (Hin : t ∈ split s_comma lhs) by (rewrite <-Hts2; apply elem_of_list_fmap; by exists (f, t)). cbn [snd].
    split; [split|].
    - intros H. apply Hl1. by eapply elem_of_split1.
    - intros H. apply Hl2. by eapply elem_of_split1.
    - pose proof (split1_pieces c_comma lhs) as Hp. rewrite Forall_forall in Hp. by apply Hp. }
  assert (Htne : ts <> []) by (intros E; rewrite E in Hts2; by symmetry in Hts2).
  split; [done|]. split; [done|]. split; [done|].
  rewrite <-joined_merged by done. unfold R. f_equal. f_equal. unfold ts. rewrite <-joined_wrap by done. f_equal. unfold wrap_terms. apply imap_ext. intros i t _.
  destruct (decide (i ∈ constants)); [by rewrite bool_decide_true|by rewrite bool_decide_false].
Qed.

Lemma format_ok (lhs : str) (out : option str) (constants : list nat) :
  let tail := match out with None => [] | Some o => s_arrow ++ o end in
  no_brackets (lhs ++ tail) -> c_dash ∉ lhs -> c_dash ∉ default [] out -> constants <> [] ->
  exists r, format_const_einsum_str (lhs ++ tail) constants = Ok (r ++ tail) /\ drop_brackets (r ++ tail) = lhs ++ tail /\
    scan false false [] r = imap (fun i t => (bool_decide (i ∈ constants), t)) (split s_comma lhs).
Proof.
  intros tail [Hs1 Hs2] Hl Ho Hc. apply not_elem_of_app in Hs1 as [Hs1 Hs3], Hs2 as [Hs2 Hs4].
  destruct (format_shape lhs tail constants) as (H1 & H2 & H3 & H4); [done|done|].
  set (ts := imap _ (split s_comma lhs)) in *. exists (merged false ts). split; [|split].
  - unfold format_const_einsum_str. destruct constants as [|k ks]; [done|]. destruct out as [o|]; unfold tail in *; change (default [] _) with o in Ho || idtac.
    + rewrite sub_in_arrow_app by done. unfold split_arrow. rewrite split_arrow_two by done. cbn [mbind res_bind]. by rewrite H4.
    + rewrite app_nil_r. unfold sub_in, count_sub. rewrite split_arrow_no by done. cbn [mbind res_bind]. by rewrite <-H4.
  - rewrite drop_app, drop_merged, H2 by done. unfold s_comma. by rewrite join_split1, drop_plain.
  - by apply scan_merged.
Qed.
