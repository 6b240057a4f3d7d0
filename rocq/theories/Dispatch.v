(** Model of /repo/opt_einsum/backends/dispatch.py and of the choice of a backend (/repo/opt_einsum/contract.py 606-628). *)
From Verif Require Import Prelude Random.

(** dispatch.py 26-34: [_aliases] *)
Definition aliases : list (str * str) :=
  [(lit "dask", lit "dask.array"); (lit "theano", lit "theano.tensor"); (lit "torch", lit "opt_einsum.backends.torch"); (lit "jax", lit "jax.numpy");
   (lit "jaxlib", lit "jax.numpy"); (lit "autograd", lit "autograd.numpy"); (lit "mars", lit "mars.tensor")].
Definition alias (backend : str) : str := default backend (lookup_fn aliases backend).

(** dispatch.py 122-136: the keys of [CONVERT_BACKENDS] and [EVAL_CONSTS_BACKENDS] *)
Definition convert_names : list str := [lit "tensorflow"; lit "theano"; lit "cupy"; lit "torch"; lit "jax"].
(** dispatch.py 154-156: [has_backend] *)
Definition has_backend (backend : str) : bool := bool_decide (lower backend ∈ convert_names).
(** dispatch.py 139-151: the lookups of [build_expression] and [evaluate_constants]; the name stands for the function found. *)
Definition convert_fn (backend : str) : res str := if decide (backend ∈ convert_names) then Ok backend else Err KeyError.

Section Dispatch.
  (** Functions, and classes of arrays. *)
  Variables F C : Type.
  Context `{Countable C}.
  (** The installed modules with their attributes ([import_module] and [getattr]), [object_arrays.object_einsum], and the [__module__] of each class. *)
  Record world := World { w_module : str -> option (str -> option F); w_object : F; w_class : C -> str }.
  Variable W : world.

  (** dispatch.py 37-52: [_import_func] *)
  Definition import_func (func backend : str) (dflt : option F) : res F :=
    lib ← of_opt ImportError (w_module W (alias backend));
    match dflt with
    | None => of_opt AttributeError (lib func)
    | Some g => Ok (default g (lib func))
    end.

  (** dispatch.py 57-59, 87, 104 and contract.py 606-608: the caches *)
  Record caches := Caches { k_funcs : gmap (str * str) F; k_einsum : gmap str bool; k_tensordot : gmap str bool; k_class : gmap C str }.
  (** dispatch.py 57-71: what they hold after importing the module *)
  Definition start : res caches :=
    let k0 := {[ (lit "einsum", lit "object") := w_object W ]} in
    match w_module W (lit "numpy") with
    | None => Ok (Caches k0 ∅ ∅ ∅)
    | Some np =>
      td ← of_opt AttributeError (np (lit "tensordot"));
      tr ← of_opt AttributeError (np (lit "transpose"));
      ei ← of_opt AttributeError (np (lit "einsum"));
      Ok (Caches (<[(lit "transpose", lit "object") := tr]> (<[(lit "tensordot", lit "object") := td]> (<[(lit "einsum", lit "numpy") := ei]>
            (<[(lit "transpose", lit "numpy") := tr]> (<[(lit "tensordot", lit "numpy") := td]> k0))))) ∅ ∅ ∅)
    end.

  (** dispatch.py 74-83: [get_func] *)
  Definition get_func (k : caches) (func backend : str) (dflt : option F) : res F * caches :=
    match k_funcs k !! (func, backend) with
    | Some f => (Ok f, k)
    | None => match import_func func backend dflt with
              | Ok f => (Ok f, Caches (<[(func, backend) := f]> (k_funcs k)) (k_einsum k) (k_tensordot k) (k_class k))
              | Err e => (Err e, k)
              end
    end.
  (** dispatch.py 90-101: [has_einsum] *)
  Definition has_einsum (k : caches) (backend : str) : res bool * caches :=
    match k_einsum k !! backend with
    | Some b => (Ok b, k)
    | None => let '(r, k) := get_func k (lit "einsum") backend None in
      match r with
      | Ok _ => (Ok true, Caches (k_funcs k) (<[backend := true]> (k_einsum k)) (k_tensordot k) (k_class k))
      | Err AttributeError => (Ok false, Caches (k_funcs k) (<[backend := false]> (k_einsum k)) (k_tensordot k) (k_class k))
      | Err e => (Err e, k)
      end
    end.
  (** dispatch.py 107-118: [has_tensordot] *)
  Definition has_tensordot (k : caches) (backend : str) : res bool * caches :=
    match k_tensordot k !! backend with
    | Some b => (Ok b, k)
    | None => let '(r, k) := get_func k (lit "tensordot") backend None in
      match r with
      | Ok _ => (Ok true, Caches (k_funcs k) (k_einsum k) (<[backend := true]> (k_tensordot k)) (k_class k))
      | Err AttributeError => (Ok false, Caches (k_funcs k) (k_einsum k) (<[backend := false]> (k_tensordot k)) (k_class k))
      | Err e => (Err e, k)
      end
    end.
  (** contract.py 606-612: [infer_backend]; [split] never returns an empty list *)
  Definition infer_backend (k : caches) (c : C) : str * caches :=
    match k_class k !! c with
    | Some b => (b, k)
    | None => let b := hd [] (split [c_dot] (w_class W c)) in (b, Caches (k_funcs k) (k_einsum k) (k_tensordot k) (<[c := b]> (k_class k)))
    end.
  (** contract.py 615-628: [parse_backend], given the classes of the arrays *)
  Definition parse_backend (k : caches) (arrays : list C) (backend : option str) : res str * caches :=
    let auto := match arrays with
                | [] => (Err IndexError, k)
                | c :: _ => let '(b, k) := infer_backend k c in let '(r, k) := has_tensordot k b in
                  (match r with Ok true => Ok b | Ok false => Ok (lit "numpy") | Err e => Err e end, k)
                end in
    match backend with
    | Some b => if decide (b = lit "auto") then auto else (Ok b, k)
    | None => auto
    end.

  (** Any sequence of calls. *)
  Inductive call := CGet (func backend : str) (dflt : option F) | CEinsum (backend : str) | CTensordot (backend : str) | CParse (arrays : list C) (backend : option str).
  Inductive answer := AFunc (r : res F) | ABool (r : res bool) | AName (r : res str).
  Definition do_call (k : caches) (c : call) : answer * caches :=
    match c with
    | CGet f b dflt => let '(r, k) := get_func k f b dflt in (AFunc r, k)
    | CEinsum b => let '(r, k) := has_einsum k b in (ABool r, k)
    | CTensordot b => let '(r, k) := has_tensordot k b in (ABool r, k)
    | CParse arrays b => let '(r, k) := parse_backend k arrays b in (AName r, k)
    end.
  Fixpoint do_calls (k : caches) (cs : list call) : list answer * caches :=
    match cs with
    | [] => ([], k)
    | c :: cs => let '(a, k) := do_call k c in let '(l, k) := do_calls k cs in (a :: l, k)
    end.
End Dispatch.
