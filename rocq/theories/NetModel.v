(** Model of the torch modules and of the nets of skada/deep as objects: forward hooks, the dictionaries of intermediate features,
    cloning, fitting more than once (/repo/skada/deep/base.py lines 387-666 and 710-779, /repo/skada/deep/utils.py lines 17-35 and
    65-99, CDANModule in /repo/skada/deep/_adversarial.py), and of the functions building nets (SourceOnly, TargetOnly, DANN, CDAN,
    MDD, SPA, CAN). Values of tensors are abstract; devices are not modelled. *)
From Coq Require Import String List ZArith QArith Bool Arith Lia Reals Lra.
From Verif Require Import Np Labels RVec LossModel DeepModel.
Import ListNotations.
Local Open Scope nat_scope.
Local Open Scope list_scope.

(** ** Memory: base modules, dictionaries of features, domain-aware modules *)
Section Memory.
  (** Weights, inputs, tensors, flattened tensors, outputs of a domain classifier. *)
  Variables W X T F D : Type.
  (** output.flatten(start_dim=1), utils.py line 23; raises for a tensor with one dimension. *)
  Variable flatten : T -> res F.

  (** The code of a torch module given by the user: the names of named_modules() (the root has the empty name), whether forward has a
      parameter sample_weight (which it does not use: simplification), and what a call does: the submodules called, in order, each with
      its output, then the output of the call or the exception raised. *)
  Record code := mkCode { c_layers : list string; c_takes_weight : bool; c_run : W -> X -> list (string * T) * res T }.
  (** A module in memory. [b_hooks]: forward hooks, each on a layer and with the address of a dictionary. *)
  Record base_obj := mkBase { b_code : code; b_w : W; b_hooks : list (string * nat) }.
  (** A dictionary of features; the flag of an entry: the tensor has a gradient function. *)
  Definition dict : Type := list (string * (F * bool)).
  (** DomainAwareModule (base.py lines 405-411) or, with [m_cdan] = (max_features, random_state), CDANModule. The domain classifier is
      given the output of the base module and the features (CDANModule: their multilinear map, see CallModel). *)
  Record modl := mkMod { m_base : nat; m_layer : option string; m_dict : nat; m_dc : option (T -> option F -> res D); m_cdan : option (nat * Z) }.
  Record heap := mkHeap { h_bases : list base_obj; h_dicts : list dict; h_mods : list modl }.

  Definition empty_heap : heap := mkHeap [] [] [].

  Fixpoint replace {A} (l : list A) (i : nat) (x : A) : list A :=
    match l, i with [], _ => [] | _ :: l', 0 => x :: l' | y :: l', S i' => y :: replace l' i' x end.

  (** dict[key] = value; the order of the keys is not modelled. *)
  Definition dict_set (d : dict) (k : string) (v : F * bool) : dict := (k, v) :: filter (fun p => negb (String.eqb (fst p) k)) d.
  Definition dict_get (d : dict) (k : string) : option (F * bool) :=
    match find (fun p => String.eqb (fst p) k) d with Some p => Some (snd p) | None => None end.

  (** utils.py lines 26-35 with layer_names = [layer_name]. *)
  Definition register (h : heap) (b a : nat) (layer : option string) : heap :=
    match nth_error (h_bases h) b, layer with
    | Some o, Some l =>
        let new := map (fun n => (n, a)) (filter (String.eqb l) (c_layers (b_code o))) in
        mkHeap (replace (h_bases h) b (mkBase (b_code o) (b_w o) (b_hooks o ++ new))) (h_dicts h) (h_mods h)
    | _, _ => h
    end.

  (** base.py lines 405-416 (and _adversarial.py lines 232-242): the new module is the last one of [h_mods]. *)
  Definition new_module (h : heap) (b : nat) (layer : option string) dc cdan : heap :=
    let a := length (h_dicts h) in
    let h1 := mkHeap (h_bases h) (h_dicts h ++ [[]]) (h_mods h ++ [mkMod b layer a dc cdan]) in
    register h1 b a layer.

  (** copy.deepcopy of a torch module: weights and hooks are copied, hooks with their dictionaries (modelled by copying all of them;
      those not referred to do not matter). torch refuses to copy a tensor that has a gradient function. *)
  Definition attached (d : dict) : bool := existsb (fun p => snd (snd p)) d.
  Definition deepcopy (h : heap) (b : nat) : res heap :=
    match nth_error (h_bases h) b with
    | None => Err AttributeError
    | Some o =>
        if existsb (fun k => attached (nth (snd k) (h_dicts h) [])) (b_hooks o) then Err RuntimeError else
        let n := length (h_dicts h) in
        Ok (mkHeap (h_bases h ++ [mkBase (b_code o) (b_w o) (map (fun k => (fst k, n + snd k)) (b_hooks o))])
                   (h_dicts h ++ h_dicts h) (h_mods h))
    end.

  (** base.py lines 418-428 with sklearn's _clone_parametrized: get_params has three entries, also for CDANModule, whose other two
      parameters get their defaults. *)
  Definition clone_module (h : heap) (m : nat) : res heap :=
    match nth_error (h_mods h) m with
    | None => Err AttributeError
    | Some o =>
        h1 <- deepcopy h (m_base o) ;;
        let b := length (h_bases h) in
        let h2 := new_module h1 b (m_layer o) (m_dc o) (match m_cdan o with None => None | Some _ => Some (4096, 42%Z) end) in
        Ok (register h2 b (length (h_dicts h1)) (m_layer o))
    end.

  (** The hooks of the layers called, in order; utils.py lines 22-23. [grad]: gradients are recorded. *)
  Definition run_hook (grad : bool) (out : T) (ds : list dict * option exn) (k : string * nat) : list dict * option exn :=
    match snd ds with
    | Some e => ds
    | None => match flatten out with
              | Ok f => (replace (fst ds) (snd k) (dict_set (nth (snd k) (fst ds) []) (fst k) (f, grad)), None)
              | Err e => (fst ds, Some e)
              end
    end.
  Definition run_layer (grad : bool) (hooks : list (string * nat)) (ds : list dict * option exn) (e : string * T) : list dict * option exn :=
    fold_left (run_hook grad (snd e)) (filter (fun k => String.eqb (fst k) (fst e)) hooks) ds.
  (** The call of a base module, with or without the keyword argument sample_weight. The root module ends last. *)
  Definition call_base (grad keyword : bool) (h : heap) (b : nat) (x : X) : heap * res T :=
    match nth_error (h_bases h) b with
    | None => (h, Err AttributeError)
    | Some o =>
        if keyword && negb (c_takes_weight (b_code o)) then (h, Err TypeError) else
        let (trace, r) := c_run (b_code o) (b_w o) x in
        let trace' := match r with Ok y => trace ++ [(EmptyString, y)] | Err _ => trace end in
        let (ds, e) := fold_left (run_layer grad (b_hooks o)) trace' (h_dicts h, None) in
        (mkHeap (h_bases h) ds (h_mods h), match e with Some e => Err e | None => r end)
    end.

  (** intermediate_layers[layer_name] *)
  Definition features_of (h : heap) (o : modl) : res F :=
    match m_layer o with
    | None => Err KeyError
    | Some l => match dict_get (nth (m_dict o) (h_dicts h) []) l with Some (f, _) => Ok f | None => Err KeyError end
    end.

  Inductive output := OutFit (y : T) (domain_pred : option D) (features : option F) | OutPred (y : T) | OutBoth (y : T) (features : F).
  Definition lift {A B} (r : heap * res A) (k : heap -> A -> res B) : heap * res B :=
    (fst r, match snd r with Ok a => k (fst r) a | Err e => Err e end).
  (** base.py lines 430-463. [weighted]: sample_weight is not None. sample_domain and sample_idx are passed through. *)
  Definition forward_plain (grad : bool) (h : heap) (o : modl) (x : X) (weighted is_fit return_features : bool) : heap * res output :=
    if is_fit then
      lift (call_base grad weighted h (m_base o) x) (fun h' y =>
        f <- match m_layer o with None => Ok None | Some _ => f <- features_of h' o ;; Ok (Some f) end ;;
        d <- match m_dc o with None => Ok None | Some c => d <- c y f ;; Ok (Some d) end ;;
        Ok (OutFit y d f))
    else
      lift (call_base grad true h (m_base o) x) (fun h' y =>
        if return_features then (f <- features_of h' o ;; Ok (OutBoth y f)) else Ok (OutPred y)).
  (** _adversarial.py lines 244-289; forward has no parameter sample_weight. *)
  Definition forward_cdan (grad : bool) (h : heap) (o : modl) (x : X) (weighted is_fit return_features : bool) : heap * res output :=
    if weighted then (h, Err TypeError) else
    lift (call_base grad false h (m_base o) x) (fun h' y =>
      if is_fit then
        f <- features_of h' o ;;
        match m_dc o with None => Err TypeError | Some c => d <- c y (Some f) ;; Ok (OutFit y (Some d) (Some f)) end
      else if return_features then (f <- features_of h' o ;; Ok (OutBoth y f)) else Ok (OutPred y)).
  Definition forward (grad : bool) (h : heap) (m : nat) (x : X) (weighted is_fit return_features : bool) : heap * res output :=
    match nth_error (h_mods h) m with
    | None => (h, Err AttributeError)
    | Some o => match m_cdan o with
                | None => forward_plain grad h o x weighted is_fit return_features
                | Some _ => forward_cdan grad h o x weighted is_fit return_features
                end
    end.

  (** An optimiser step on the weights of the base module of [m]. *)
  Definition set_weights (h : heap) (b : nat) (f : W -> W) : heap :=
    match nth_error (h_bases h) b with
    | None => h
    | Some o => mkHeap (replace (h_bases h) b (mkBase (b_code o) (f (b_w o)) (b_hooks o))) (h_dicts h) (h_mods h)
    end.

  (** What a user can do, in any order; a failing step leaves the heap it reached. *)
  Inductive event :=
  | ENewBase (c : code) (w : W)
  | ENewModule (b : nat) (layer : option string) (dc : option (T -> option F -> res D)) (cdan : option (nat * Z))
  | EClone (m : nat)
  | EForward (grad : bool) (m : nat) (x : X) (weighted is_fit return_features : bool)
  | EStep (b : nat) (f : W -> W).
  Definition exec (h : heap) (e : event) : heap :=
    match e with
    | ENewBase c w => mkHeap (h_bases h ++ [mkBase c w []]) (h_dicts h) (h_mods h)
    | ENewModule b l dc cdan => if b <? length (h_bases h) then new_module h b l dc cdan else h
    | EClone m => match clone_module h m with Ok h' => h' | Err _ => h end
    | EForward grad m x w f r => fst (forward grad h m x w f r)
    | EStep b f => set_weights h b f
    end.
  Definition history (es : list event) : heap := fold_left exec es empty_heap.

  (** ** Nets: skorch's NeuralNet with module=DomainAwareModule and module__base_module, as all the functions of skada.deep build it *)

  (** [t_mod]: the attribute module_, absent before initialize(). *)
  Record net := mkNet { t_base : nat; t_layer : option string; t_dc : option (T -> option F -> res D); t_mod : option nat }.
  (** skorch: fit calls initialize() (warm_start=False), which builds module_ from the class and the parameters module__*. *)
  Definition net_init (h : heap) (t : net) : heap * net :=
    (new_module h (t_base t) (t_layer t) (t_dc t) None, mkNet (t_base t) (t_layer t) (t_dc t) (Some (length (h_mods h)))).
  (** One training batch: forward with gradients (base.py line 534 passes is_fit=True), then a step of the optimiser; an exception ends
      the training. [step]: loss, gradients and optimiser. *)
  Variable step : X -> output -> W -> W.
  Definition train_batch (s : heap * res unit) (m b : nat) (xw : X * bool) : heap * res unit :=
    match snd s with
    | Err _ => s
    | Ok _ => let r := forward true (fst s) m (fst xw) (snd xw) true false in
              match snd r with
              | Ok o => (set_weights (fst r) b (step (fst xw) o), Ok tt)
              | Err e => (fst r, Err e)
              end
    end.
  (** base.py lines 504-534, without a validation split; a batch has its input and whether it comes with weights. *)
  Definition net_fit (h : heap) (t : net) (batches : list (X * bool)) : heap * res net :=
    let (h1, t1) := net_init h t in
    let r := fold_left (fun s xw => train_batch s (length (h_mods h)) (t_base t) xw) batches (h1, Ok tt) in
    (fst r, match snd r with Ok _ => Ok t1 | Err e => Err e end).
  (** evaluation of one batch (no gradients): predict, predict_proba. *)
  Definition net_predict (h : heap) (t : net) (xw : X * bool) : heap * res T :=
    match t_mod t with
    | None => (h, Err NotFittedError)
    | Some m => let r := forward false h m (fst xw) (snd xw) false false in
                (fst r, match snd r with Ok (OutPred y) => Ok y | Ok _ => Err RuntimeError | Err e => Err e end)
    end.
  (** sklearn.base.clone of a net: the parameters are copied (module__base_module by copy.deepcopy), module_ is dropped. *)
  Definition net_clone (h : heap) (t : net) : res (heap * net) :=
    h1 <- deepcopy h (t_base t) ;; Ok (h1, mkNet (length (h_bases h)) (t_layer t) (t_dc t) None).
End Memory.

(** ** The non-linearity of predict_proba *)

Inductive nonlin_param := NLNone | NLAuto | NLCallable (f : list R -> list R) | NLOther.
(** base.py lines 598-606 and utils.py lines 65-99, on one row. [initialised]: check_is_fitted; [n_criteria]: len(net._criteria);
    [is_ce]: base_criterion is a CrossEntropyLoss. *)
Definition infer_nonlinearity (n_criteria : nat) (is_ce : bool) : list R -> list R :=
  if negb (n_criteria =? 1) then (fun r => r) else if is_ce then softmax else (fun r => r).
Definition nonlinearity (initialised : bool) (p : nonlin_param) (n_criteria : nat) (is_ce : bool) : res (list R -> list R) :=
  if negb initialised then Err NotFittedError else
  match p with
  | NLNone => Ok (fun r => r)
  | NLAuto => Ok (infer_nonlinearity n_criteria is_ce)
  | NLCallable f => Ok f
  | NLOther => Err TypeError
  end.

Section Features.
  Variable Row : Type.
  Variable row_ok : Row -> bool.
  (** The raw outputs and the features of the module in evaluation mode for a batch. *)
  Variables outputs feats : list (item Row) -> list (list R).
  Variable batch_size : nat.
  (** skorch's predict_proba with the non-linearity, base.py lines 608-641. *)
  Definition net_predict_proba (p : nonlin_param) (n_criteria : nat) (is_ce : bool) x sd w allow_source : res (list (list R)) :=
    f <- nonlinearity true p n_criteria is_ce ;;
    predict_proba Row row_ok (fun its => map f (outputs its)) batch_size x sd w allow_source.
  Definition net_predict_labels p n_criteria is_ce x sd w allow_source : res (list nat) :=
    q <- net_predict_proba p n_criteria is_ce x sd w allow_source ;; mapM np_argmax q.
  (** base.py lines 643-666 and 710-779: no selection of the target samples. *)
  Definition predict_features (x : net_input Row) : res (list (list R)) :=
    d <- prepare_input Row row_ok x None DomNone None ;;
    match chunks batch_size (items Row d) with
    | [] => Err ValueError
    | b => Ok (concat (map feats b))
    end.
End Features.

(** ** The functions building nets *)

(** _baseline.py lines 16-32. *)
Definition dummy_loss {A B C} (y : list val) (ps pt : list A) (ds dt : option (list B)) (fs ft : option (list C)) (i j : option (list nat)) : res R := Ok 0%R.
(** _baseline.py lines 57-68 and 94-106: the criterion of SourceOnly and of TargetOnly. *)
Definition source_only_loss {P D F} (base : list P -> list val -> res tensor) := criterion_forward P D F base dummy_loss 0%R false.
Definition target_only_loss {P D F} (base : list P -> list val -> res tensor) := criterion_forward P D F base dummy_loss 0%R true.

(** A domain classifier: its input size, if this module built it. *)
Inductive dclass := UserClassifier | BuiltClassifier (n_in n_out : nat).
(** modules.py lines 174-183: nn.Linear(100, None) raises TypeError. *)
Definition DomainClassifier (n_in : nat) (n_out : option nat) : res dclass :=
  match n_out with None => Err TypeError | Some k => Ok (BuiltClassifier n_in k) end.
(** _adversarial.py lines 125-131; _graph_alignment.py lines 192-198. *)
Definition dann_classifier (user : bool) (num_features : option nat) : res dclass :=
  if user then Ok UserClassifier else
  match num_features with None => Err ValueError | Some n => DomainClassifier n (Some 1) end.
(** _adversarial.py lines 345-355. *)
Definition cdan_classifier (user : bool) (max_features : nat) (num_features n_classes : option nat) : res dclass :=
  if user then Ok UserClassifier else
  match num_features, n_classes with
  | None, _ => Err ValueError
  | _, None => Err ValueError
  | Some n, Some k => DomainClassifier (Nat.min (n * k) max_features) (Some 1)
  end.
(** _adversarial.py lines 526-534. *)
Definition mdd_classifier (user : bool) (num_features n_classes : option nat) : res dclass :=
  if user then Ok UserClassifier else
  match num_features with None => Err ValueError | Some n => DomainClassifier n n_classes end.

(** Callbacks: the argument is None, one callback, or a list object (given by its address). *)
Inductive callback := CUser (n : nat) | CMemoryBank | CCountEpochs | CCentroids.
Inductive cb_arg := CbNone | CbOne (c : callback) | CbList (a : nat).
(** The lists in memory; a net refers to its list. _graph_alignment.py lines 200-214 and _divergence.py lines 296-302. *)
Definition lists := list (list callback).
Definition own_callbacks (own : list callback) (mem : lists) (arg : cb_arg) : lists * nat :=
  match arg with
  | CbNone => (mem ++ [own], length mem)
  | CbOne c => (mem ++ [c :: own], length mem)
  | CbList a => (replace mem a (nth a mem [] ++ own), a)
  end.
Definition spa_callbacks := own_callbacks [CMemoryBank; CCountEpochs].
Definition can_callbacks := own_callbacks [CCentroids].
(** callbacks.py lines 180-182: every CountEpochs of the list adds one at the beginning of an epoch. *)
Definition is_count (c : callback) : bool := match c with CCountEpochs => true | _ => false end.
Definition epoch_begin (cbs : list callback) (n : nat) : nat := n + length (filter is_count cbs).
Fixpoint epochs (cbs : list callback) (k n : nat) : list nat :=
  match k with 0 => [] | S k' => let n' := epoch_begin cbs n in n' :: epochs cbs k' n' end.
