(** Property C57: which function a backend name stands for, and which backend is chosen; statements, each with a concrete instance. *)
From Verif Require Import Prelude Random Dispatch.

(** ** C57 *)
Arguments w_module {F C} _ _. Arguments w_object {F C} _. Arguments w_class {F C} _ _. Arguments World {F C} _ _ _.
Arguments start {F C _ _} _. Arguments get_func {F C _ _} _ _ _ _ _. Arguments has_einsum {F C _ _} _ _ _. Arguments has_tensordot {F C _ _} _ _ _.
Arguments parse_backend {F C _ _} _ _ _ _. Arguments do_call {F C _ _} _ _ _. Arguments do_calls {F C _ _} _ _ _. Arguments import_func {F C} _ _ _ _.
Arguments k_funcs {F C _ _} _. Arguments k_einsum {F C _ _} _. Arguments k_tensordot {F C _ _} _. Arguments k_class {F C _ _} _. Arguments infer_backend {F C _ _} _ _ _.
Arguments CGet {F C} _ _ _. Arguments CEinsum {F C} _. Arguments CTensordot {F C} _. Arguments CParse {F C} _ _. Arguments AFunc {F} _. Arguments ABool {F} _. Arguments AName {F} _.
Section Meaning.
  Context {F C : Type} `{Countable C}.
  Variable W : world F C.

  (** What the names should stand for, whatever was asked before: 'object' has its own einsum and numpy's other functions; otherwise the module of
      that name (or the one it is an alias for) is asked for its attribute. *)
  Definition attribute (m func : str) (dflt : option F) : res F :=
    match w_module W m with
    | None => Err ImportError
    | Some lib => match lib func, dflt with Some f, _ => Ok f | None, Some g => Ok g | None, None => Err AttributeError end
    end.
  Definition stands_for (func backend : str) (dflt : option F) : res F :=
    if decide (backend = lit "object" /\ func = lit "einsum") then Ok (w_object W)
    else if decide (backend = lit "object" /\ (func = lit "tensordot" \/ func = lit "transpose") /\ is_Some (w_module W (lit "numpy"))) then attribute (lit "numpy") func dflt
    else attribute (alias backend) func dflt.
  Definition provides (func backend : str) : res bool :=
    match stands_for func backend None with Ok _ => Ok true | Err AttributeError => Ok false | Err e => Err e end.
  (** The package a module belongs to: what is before the first dot. *)
  Definition package (m : str) : str := take (default (length m) (find c_dot m)) m.
  (** The library of the first array, or numpy if that has no tensordot. *)
  Definition first_library (arrays : list C) : res str :=
    c ← of_opt IndexError (head arrays); has ← provides (lit "tensordot") (package (w_class W c)); Ok (if has : bool then package (w_class W c) else lit "numpy").
  Definition meaning (c : call F C) : answer F :=
    match c with
    | CGet f b dflt => AFunc (stands_for f b dflt)
    | CEinsum b => ABool (provides (lit "einsum") b)
    | CTensordot b => ABool (provides (lit "tensordot") b)
    | CParse arrays None => AName (first_library arrays)
    | CParse arrays (Some b) => AName (if decide (b = lit "auto") then first_library arrays else Ok b)
    end.
  (** Every function is asked for with the default [dflt] gives for it, as the library does: transpose has one, einsum and tensordot do not. *)
  Definition uniform (dflt : str -> option F) (c : call F C) : Prop := match c with CGet f _ d => d = dflt f | _ => True end.

  Lemma package_split m : hd [] (split [c_dot] m) = package m.
  Proof.
    induction m as [|c m IH]; [done|]. unfold package, split in *. cbn [split_aux find prefixb length]. destruct (decide (c = c_dot)) as [->|Hn].
    - by rewrite bool_decide_eq_true_2.
    - rewrite bool_decide_eq_false_2 by congruence. cbn [andb]. destruct (split_aux [c_dot] 0 m) as [|h t] eqn:E; [by apply split_aux_ne in E|]. simpl in IH. subst h. simpl.
      destruct (find c_dot m); done.
  Qed.

  Variable dflt : str -> option F.
  Hypothesis no_einsum : dflt (lit "einsum") = None.
  Hypothesis no_tensordot : dflt (lit "tensordot") = None.
  Definition sound (k : caches F C) : Prop :=
    (forall f b v, k_funcs k !! (f, b) = Some v -> stands_for f b (dflt f) = Ok v) /\
    (forall b v, k_einsum k !! b = Some v -> provides (lit "einsum") b = Ok v) /\
    (forall b v, k_tensordot k !! b = Some v -> provides (lit "tensordot") b = Ok v) /\
    (forall c b, k_class k !! c = Some b -> b = package (w_class W c)).
  (** The functions put into the cache at the beginning. *)
  Definition holds_start (k : caches F C) : Prop :=
    is_Some (k_funcs k !! (lit "einsum", lit "object")) /\
    (is_Some (w_module W (lit "numpy")) -> is_Some (k_funcs k !! (lit "tensordot", lit "object")) /\ is_Some (k_funcs k !! (lit "transpose", lit "object"))).
  Lemma import_attribute f b d : import_func W f b d = attribute (alias b) f d.
  Proof. unfold import_func, attribute. destruct (w_module W (alias b)) as [lib|]; [|done]. simpl. by destruct d, (lib f). Qed.
  Lemma attr_some m lib f v d : w_module W m = Some lib -> lib f = Some v -> attribute m f d = Ok v.
  Proof. intros H1 H2. unfold attribute. by rewrite H1, H2. Qed.
  Lemma start_sound k : start W = Ok k -> sound k /\ holds_start k.
  Proof.
    unfold start. intros Hs. destruct (w_module W (lit "numpy")) as [np|] eqn:Hnp.
    - apply bind_Ok in Hs as (td & H1 & Hs). apply bind_Ok in Hs as (tr & H2 & Hs). apply bind_Ok in Hs as (ei & H3 & Hs). apply Ok_inj in Hs as <-.
      destruct (np (lit "tensordot")) as [td'|] eqn:E1; [|done]. destruct (np (lit "transpose")) as [tr'|] eqn:E2; [|done]. destruct (np (lit "einsum")) as [ei'|] eqn:E3; [|done].
      apply Ok_inj in H1 as ->. apply Ok_inj in H2 as ->. apply Ok_inj in H3 as ->. split; [split; [|split; [|split]; cbn [k_einsum k_tensordot k_class]; intros ? ? Hx; by rewrite lookup_empty in Hx]|].
      + intros f b v. cbn [k_funcs]. intros Hv. apply lookup_insert_Some in Hv as [[[= <- <-] <-]|[_ Hv]].
        { unfold stands_for. rewrite decide_False by (by intros [_ ?]). rewrite decide_True by (split; [done|]; split; [by right|by rewrite Hnp]). by eapply attr_some. }
        apply lookup_insert_Some in Hv as [[[= <- <-] <-]|[_ Hv]].
        { unfold stands_for. rewrite decide_False by (by intros [_ ?]). rewrite decide_True by (split; [done|]; split; [by left|by rewrite Hnp]). by eapply attr_some. }
        apply lookup_insert_Some in Hv as [[[= <- <-] <-]|[_ Hv]].
        { unfold stands_for. rewrite decide_False by (by intros [? _]). rewrite decide_False by (by intros [? _]). change (alias (lit "numpy")) with (lit "numpy"). by eapply attr_some. }
        apply lookup_insert_Some in Hv as [[[= <- <-] <-]|[_ Hv]].
        { unfold stands_for. rewrite decide_False by (by intros [? _]). rewrite decide_False by (by intros [? _]). change (alias (lit "numpy")) with (lit "numpy"). by eapply attr_some. }
        apply lookup_insert_Some in Hv as [[[= <- <-] <-]|[_ Hv]].
        { unfold stands_for. rewrite decide_False by (by intros [? _]). rewrite decide_False by (by intros [? _]). change (alias (lit "numpy")) with (lit "numpy"). by eapply attr_some. }
        apply lookup_singleton_Some in Hv as [[= <- <-] <-]. unfold stands_for. by rewrite decide_True.
      + split; [|intros _; split]; cbn [k_funcs]; rewrite ?lookup_insert; [|by eexists|]; repeat (rewrite lookup_insert_ne by (intros Hx; vm_compute in Hx; discriminate Hx)); rewrite ?lookup_insert; by eexists.
    - apply Ok_inj in Hs as <-. split; [split; [|split; [|split]; cbn [k_einsum k_tensordot k_class]; intros ? ? Hx; by rewrite lookup_empty in Hx]|].
      + intros f b v Hv. cbn [k_funcs] in Hv. apply lookup_singleton_Some in Hv as [[= <- <-] <-]. unfold stands_for. by rewrite decide_True.
      + split; [cbn [k_funcs]; rewrite lookup_singleton; by eexists|]. rewrite Hnp. by intros [? ?].
  Qed.
  Lemma get_sound k f b : sound k -> holds_start k -> let '(r, k') := get_func W k f b (dflt f) in
    r = stands_for f b (dflt f) /\ sound k' /\ holds_start k'.
  Proof.
    intros (H1 & H2 & H3 & H4) (P1 & P2). unfold get_func. destruct (k_funcs k !! (f, b)) as [v|] eqn:E; [split; [symmetry; by apply H1|]; done|].
    assert (Heq : import_func W f b (dflt f) = stands_for f b (dflt f)).
    { unfold stands_for. rewrite decide_False by (intros [-> ->]; rewrite E in P1; by destruct P1). rewrite decide_False; [by rewrite import_attribute|].
      intros (-> & Hf & Hn). apply P2 in Hn as [N1 N2]. destruct Hf as [-> | ->]; [rewrite E in N1|rewrite E in N2]; by destruct N1, N2. }
    rewrite Heq. destruct (stands_for f b (dflt f)) as [v|e] eqn:E2; [|done]. split; [done|]. split.
    - split; [|done]. cbn [k_funcs]. intros f' b' v' Hv. apply lookup_insert_Some in Hv as [[[= <- <-] <-]|[_ Hv]]; [done|by apply H1].
    - split; cbn [k_funcs]; [apply lookup_insert_is_Some'; by right|]. intros Hn. apply P2 in Hn as [N1 N2]. split; apply lookup_insert_is_Some'; by right.
  Qed.
  Lemma einsum_sound k b : sound k -> holds_start k -> let '(r, k') := has_einsum W k b in r = provides (lit "einsum") b /\ sound k' /\ holds_start k'.
  Proof.
    intros Hs Hh. unfold has_einsum. destruct (k_einsum k !! b) as [v|] eqn:E; [split; [symmetry; by apply Hs|done]|].
    pose proof (get_sound k (lit "einsum") b Hs Hh) as Hg. rewrite no_einsum in Hg. destruct (get_func W k (lit "einsum") b None) as [r k1]. destruct Hg as (-> & (H1 & H2 & H3 & H4) & Hh1).
    unfold provides. destruct (stands_for (lit "einsum") b None) as [v|e] eqn:E2.
    - split; [done|]. split; [|done]. split; [done|]. split; [|done]. cbn [k_einsum]. intros b' v' Hv. apply lookup_insert_Some in Hv as [[<- <-]|[_ Hv]]; [unfold provides; by rewrite E2|by apply H2].
    - destruct e; try (split; [done|]; by split). split; [done|]. split; [|done]. split; [done|]. split; [|done]. cbn [k_einsum]. intros b' v' Hv.
      apply lookup_insert_Some in Hv as [[<- <-]|[_ Hv]]; [unfold provides; by rewrite E2|by apply H2].
  Qed.
  Lemma tensordot_sound k b : sound k -> holds_start k -> let '(r, k') := has_tensordot W k b in r = provides (lit "tensordot") b /\ sound k' /\ holds_start k'.
  Proof.
    intros Hs Hh. unfold has_tensordot. destruct (k_tensordot k !! b) as [v|] eqn:E; [split; [symmetry; by apply Hs|done]|].
    pose proof (get_sound k (lit "tensordot") b Hs Hh) as Hg. rewrite no_tensordot in Hg. destruct (get_func W k (lit "tensordot") b None) as [r k1]. destruct Hg as (-> & (H1 & H2 & H3 & H4) & Hh1).
    unfold provides. destruct (stands_for (lit "tensordot") b None) as [v|e] eqn:E2.
    - split; [done|]. split; [|done]. split; [done|]. split; [done|]. split; [|done]. cbn [k_tensordot]. intros b' v' Hv. apply lookup_insert_Some in Hv as [[<- <-]|[_ Hv]]; [unfold provides; by rewrite E2|by apply H3].
    - destruct e; try (split; [done|]; by split). split; [done|]. split; [|done]. split; [done|]. split; [done|]. split; [|done]. cbn [k_tensordot]. intros b' v' Hv.
      apply lookup_insert_Some in Hv as [[<- <-]|[_ Hv]]; [unfold provides; by rewrite E2|by apply H3].
  Qed.
  Lemma infer_sound k c : sound k -> holds_start k -> let '(b, k') := infer_backend W k c in b = package (w_class W c) /\ sound k' /\ holds_start k'.
  Proof.
    intros (H1 & H2 & H3 & H4) Hh. unfold infer_backend. destruct (k_class k !! c) as [b|] eqn:E; [split; [by apply H4|]; done|]. rewrite package_split. split; [done|]. split; [|done].
    split; [done|]. split; [done|]. split; [done|]. cbn [k_class]. intros c' b' Hb. apply lookup_insert_Some in Hb as [[<- <-]|[_ Hb]]; [done|by apply H4].
  Qed.
  Lemma call_sound k c : sound k -> holds_start k -> uniform dflt c -> let '(a, k') := do_call W k c in a = meaning c /\ sound k' /\ holds_start k'.
  Proof.
    intros Hs Hh Hu. destruct c as [f b d|b|b|arrays backend]; cbn [do_call meaning].
    - simpl in Hu. subst d. pose proof (get_sound k f b Hs Hh) as Hg. destruct (get_func W k f b (dflt f)) as [r k']. by destruct Hg as (-> & ? & ?).
    - pose proof (einsum_sound k b Hs Hh) as Hg. destruct (has_einsum W k b) as [r k']. by destruct Hg as (-> & ? & ?).
    - pose proof (tensordot_sound k b Hs Hh) as Hg. destruct (has_tensordot W k b) as [r k']. by destruct Hg as (-> & ? & ?).
    - unfold parse_backend. set (au := match arrays with [] => _ | _ => _ end).
      assert (Ha : au.1 = first_library arrays /\ sound au.2 /\ holds_start au.2).
      { unfold au. destruct arrays as [|c arrays]; [done|]. unfold first_library. simpl. pose proof (infer_sound k c Hs Hh) as Hi. destruct (infer_backend W k c) as [b k1]. destruct Hi as (-> & Hs1 & Hh1).
        pose proof (tensordot_sound k1 (package (w_class W c)) Hs1 Hh1) as Ht. destruct (has_tensordot W k1 _) as [r k2]. destruct Ht as (-> & Hs2 & Hh2). simpl.
        split; [|done]. destruct (provides _ _) as [[]|]; done. }
      clearbody au. destruct au as [r k']. destruct Ha as (Hr & ? & ?). simpl in Hr. subst r. destruct backend as [b|]; [|done]. destruct (decide (b = lit "auto")); cbn [meaning]; done.
  Qed.
  Lemma calls_sound cs : forall k, sound k -> holds_start k -> Forall (uniform dflt) cs -> (do_calls W k cs).1 = meaning <$> cs.
  Proof.
    induction cs as [|c cs IH]; intros k Hs Hh Hu; [done|]. apply Forall_cons in Hu as [Hc Hu]. cbn [do_calls]. pose proof (call_sound k c Hs Hh Hc) as Hk.
    destruct (do_call W k c) as [a k']. destruct Hk as (-> & Hs' & Hh'). specialize (IH k' Hs' Hh' Hu). destruct (do_calls W k' cs). simpl in *. by rewrite IH.
  Qed.
End Meaning.

(** Whatever was asked before, names stand for the same functions and the same backend is chosen. *)
Theorem C57_history_partial (F C : Type) `{Countable C} (W : world F C) (dflt : str -> option F) (k : caches F C) (cs : list (call F C)) :
  dflt (lit "einsum") = None -> dflt (lit "tensordot") = None -> start W = Ok k -> Forall (uniform dflt) cs -> (do_calls W k cs).1 = meaning W <$> cs.
Proof. intros H1 H2 Hk Hu. destruct (start_sound W dflt k Hk) as [Hs Hh]. by apply (calls_sound W dflt H1 H2). Qed.
Print Assumptions C57_history_partial.
(** So the backend chosen for arrays always has a tensordot, if numpy is installed. *)
Theorem C57_auto (F C : Type) `{Countable C} (W : world F C) (dflt : str -> option F) (k : caches F C) (before : list (call F C)) (c : C) (arrays : list C) (b : str) :
  dflt (lit "einsum") = None -> dflt (lit "tensordot") = None -> start W = Ok k -> Forall (uniform dflt) before -> is_Some (w_module W (lit "numpy")) ->
  (parse_backend W (do_calls W k before).2 (c :: arrays) None).1 = Ok b ->
  (b = package (w_class W c) \/ b = lit "numpy") /\ exists f, stands_for W (lit "tensordot") b None = Ok f.
Proof.
  intros H1 H2 Hk Hu [np Hnp] Hb. assert (Hall : (do_calls W k (before ++ [CParse (c :: arrays) None])).1 = meaning W <$> (before ++ [CParse (c :: arrays) None])).
  { eapply C57_history_partial; try done. apply Forall_app. split; [done|by repeat constructor]. }
  assert (Happ : forall cs k, (do_calls W k (cs ++ [CParse (c :: arrays) None])).1 = (do_calls W k cs).1 ++ [AName (parse_backend W (do_calls W k cs).2 (c :: arrays) None).1]).
  { clear. induction cs as [|x cs IH]; intros k; cbn [do_calls app].
    - cbn [do_call snd fst app]. by destruct (parse_backend W k (c :: arrays) None).
    - destruct (do_call W k x) as [a k']. specialize (IH k'). destruct (do_calls W k' (cs ++ _)) as [l k1]. destruct (do_calls W k' cs) as [l' k2]. simpl in *. by rewrite IH. }
  rewrite Happ, fmap_app in Hall. apply app_inj_2 in Hall as [_ Hall]; [|done]. rewrite Hb in Hall. change (meaning W <$> [_]) with [AName (F:=F) (first_library W (c :: arrays))] in Hall. assert (Hall2 : first_library W (c :: arrays) = Ok b) by congruence. clear Happ Hb Hall. rename Hall2 into Hall.
  unfold first_library in Hall. cbn [head of_opt mbind res_bind] in Hall. unfold provides in Hall. destruct (stands_for W (lit "tensordot") (package (w_class W c)) None) as [f|e] eqn:E.
  - cbn [mbind res_bind] in Hall. apply Ok_inj in Hall as <-. split; [by left|]. by exists f.
  - destruct e; try done. cbn [mbind res_bind] in Hall. apply Ok_inj in Hall as <-. split; [by right|]. unfold stands_for. rewrite decide_False by (by intros [? _]). rewrite decide_False by (by intros [? _]).
    change (alias (lit "numpy")) with (lit "numpy"). unfold attribute. rewrite Hnp. unfold start in Hk. rewrite Hnp in Hk. apply bind_Ok in Hk as (td & Htd & _).
    destruct (np (lit "tensordot")) as [f|]; [by exists f|done].
Qed.
Print Assumptions C57_auto.

(** A world with numpy, a library "foo" without einsum and transpose, and torch; functions are named by numbers, classes by their module. *)
Definition lib_of (l : list (str * nat)) : str -> option nat := lookup_fn l.
Definition world0 : world nat str := World
  (fun m => lookup_fn [(lit "numpy", lib_of [(lit "einsum", 1); (lit "tensordot", 2); (lit "transpose", 3)]); (lit "foo", lib_of [(lit "tensordot", 4)]);
                       (lit "opt_einsum.backends.torch", lib_of [(lit "einsum", 5); (lit "tensordot", 6)]); (lit "bar", lib_of [])] m) 9 id.
Definition caches0 : caches nat str := match start world0 with Ok k => k | Err _ => Caches _ _ ∅ ∅ ∅ ∅ end.
Example C57_instance : start world0 = Ok caches0 /\ (do_calls world0 caches0
  [CParse [lit "foo.core.array"; lit "numpy"] None; CGet (lit "transpose") (lit "foo") (Some 7); CEinsum (lit "foo"); CParse [lit "bar.x"] (Some (lit "auto")); CEinsum (lit "torch");
   CGet (lit "einsum") (lit "object") None; CGet (lit "transpose") (lit "object") (Some 7); CParse [lit "baz"] None; CTensordot (lit "foo"); CEinsum (lit "foo")]).1
  = [AName (Ok (lit "foo")); AFunc (Ok 7); ABool (Ok false); AName (Ok (lit "numpy")); ABool (Ok true); AFunc (Ok 9); AFunc (Ok 3); AName (Err ImportError); ABool (Ok true); ABool (Ok false)].
Proof. split; by vm_compute. Qed.
(** With different defaults for one function the first one stays: a library without the function seems to have it. *)
Theorem C57_defaults_refuted : exists (W : world nat str) k f b g, start W = Ok k /\ stands_for W f b None = Err AttributeError /\
  (do_calls W k [CGet f b None; CGet f b (Some g); CGet f b None]).1 = [AFunc (Err AttributeError); AFunc (Ok g); AFunc (Ok g)] /\
  (do_calls W k [CEinsum b]).1 = [ABool (Ok false)] /\ (do_calls W k [CGet f b (Some g); CEinsum b]).1 = [AFunc (Ok g); ABool (Ok true)].
Proof.
  exists world0, caches0, (lit "einsum"), (lit "foo"), 8. repeat split; by vm_compute.
Qed.
Print Assumptions C57_defaults_refuted.
(** Conversion to a backend is announced exactly for the names it exists for, if they are in lower case. *)
Theorem C57_convert_partial (b : str) : lower b = b -> has_backend b = true <-> is_Ok (convert_fn b).
Proof.
  intros Hb. unfold has_backend, convert_fn. rewrite Hb, bool_decide_eq_true. destruct (decide (b ∈ convert_names)); split; try done; [by eexists|]. by intros [? ?].
Qed.
Print Assumptions C57_convert_partial.
Theorem C57_convert_refuted : exists b, has_backend b = true /\ convert_fn b = Err KeyError.
Proof. exists (lit "Torch"). split; by vm_compute. Qed.
Print Assumptions C57_convert_refuted.
