(** Model of /repo/skada/deep/base.py: samplers, DeepDADataset, DomainAwareCriterion and the methods of DomainAwareNet.
    Tensors are lists of rows; devices and dtypes are not modelled. Random permutations are inputs. *)
From Coq Require Import String List ZArith QArith Bool Arith Lia Reals Lra.
From Verif Require Import Np Labels RVec.
Import ListNotations.
Local Open Scope nat_scope.
Local Open Scope list_scope.

(** Consecutive groups of [k] elements, the last one may be shorter: BatchSampler with drop_last=False. [fuel]: length of [l]. *)
Fixpoint chunks_fuel {A} (fuel k : nat) (l : list A) : list (list A) :=
  match fuel, l with
  | S f, _ :: _ => firstn k l :: chunks_fuel f k (skipn k l)
  | _, _ => []
  end.
Definition chunks {A} (k : nat) (l : list A) : list (list A) := chunks_fuel (length l) k l.

(** ** DeepDADataset *)
Section Dataset.
  Variable Row : Type.
  (** check_array accepts the row (no NaN or infinity). *)
  Variable row_ok : Row -> bool.

  (** The tensors of a dataset. has_weights is [bool(len(sample_weight))] (lines 1005, 1085, 1138, 1472, 1486). *)
  Record ds := mkDs { t_X : list Row; t_y : list val; t_sd : list Z; t_w : list R; t_has_y : list bool; t_idx : list nat }.
  Definition has_weights (d : ds) : bool := negb (length (t_w d) =? 0).

  Definition no_label : val := VNum (inject_Z (-1)).
  Definition labelled (v : val) : bool := negb (val_eqb_q v (inject_Z (-1))).

  (** base.py lines 1151-1160. One-dimensional labels, domains and weights only (simplification). *)
  Definition is_correct (d : ds) : bool :=
    (length (t_X d) =? length (t_y d)) && (length (t_y d) =? length (t_sd d)) &&
    ((length (t_X d) =? length (t_w d)) || negb (has_weights d)).

  (** Lines 1279-1296: torch.unique sorts. *)
  Definition infer_idx (sd : list Z) : res (list nat) :=
    fold_left (fun acc dom => r <- acc ;; let mask := map (Z.eqb dom) sd in np_setmask mask (seq 0 (count mask)) r)
              (unique sd) (Ok (repeat 0 (length sd))).

  (** sample_domain argument: None, an int, or an array. *)
  Inductive dom_arg := DomNone | DomInt (d : Z) | DomArr (l : list Z).

  (** Lines 1043-1092. Line 1044 calls len() on an int. *)
  Definition initialize (X : list Row) (y : option (list val)) (sd : dom_arg) (w : option (list R)) : res ds :=
    sd' <- match sd with
           | DomNone | DomArr [] => Ok (repeat 0%Z (length X))
           | DomInt _ => Err TypeError
           | DomArr l => Ok l
           end ;;
    let yh := match y with
              | None | Some [] => (repeat no_label (length X), repeat false (length X))
              | Some l => (l, map labelled l)
              end in
    let w' := match w with None => [] | Some l => l end in
    Ok (mkDs X (fst yh) sd' w' (snd yh) []).

  (** Lines 1005-1010: end of __init__. *)
  Definition finish (d : ds) : res ds :=
    if is_correct d then
      idx <- infer_idx (t_sd d) ;;
      Ok (mkDs (t_X d) (t_y d) (t_sd d) (t_w d) (t_has_y d) idx)
    else Err AssertionError.

  (** Lines 917-1010, array input: check_array raises ValueError, turned into TypeError (line 994). *)
  Definition dataset (X : list Row) (y : option (list val)) (sd : dom_arg) (w : option (list R)) : res ds :=
    if forallb row_ok X then d <- initialize X y sd w ;; finish d else Err TypeError.
  (** Lines 976-978 and 1012-1041, dict input: entries of the dict win over arguments; check_array's ValueError is not caught. *)
  Definition dataset_dict (X : list Row) (yd : option (list val)) (sdd : option dom_arg) (wd : option (list R))
             (y : option (list val)) (sd : dom_arg) (w : option (list R)) : res ds :=
    if forallb row_ok X then
      d <- initialize X (match yd with Some l => Some l | None => y end)
                      (match sdd with Some l => l | None => sd end)
                      (match wd with Some l => Some l | None => w end) ;;
      finish d
    else Err ValueError.

  (** Lines 1094-1146, out=True, then out=False (which keeps [_sample_idx]). *)
  Definition merged_w (keep_weights : bool) (a b : ds) : list R := if keep_weights then t_w a ++ t_w b else [].
  Definition merge (a b : ds) (keep_weights : bool) : res ds :=
    dataset (t_X a ++ t_X b) (Some (t_y a ++ t_y b)) (DomArr (t_sd a ++ t_sd b)) (Some (merged_w keep_weights a b)).
  Definition merge_in_place (a b : ds) (keep_weights : bool) : res ds :=
    let d := mkDs (t_X a ++ t_X b) (t_y a ++ t_y b) (t_sd a ++ t_sd b) (merged_w keep_weights a b)
                  (t_has_y a ++ t_has_y b) (t_idx a) in
    if is_correct d then Ok d else Err AssertionError.
  (** Lines 979-980: DeepDADataset(dataset). *)
  Definition copy (b : ds) : res ds := d <- merge_in_place (mkDs [] [] [] [] [] []) b true ;; finish d.

  (** Lines 1170-1180. *)
  Record item := mkItem { i_X : Row; i_y : val; i_sd : Z; i_idx : nat; i_w : option R }.
  Definition at_ {A} (l : list A) (i : nat) : res A := match nth_error l i with Some x => Ok x | None => Err IndexError end.
  Definition getitem (d : ds) (i : nat) : res item :=
    x <- at_ (t_X d) i ;;
    s <- at_ (t_sd d) i ;;
    k <- at_ (t_idx d) i ;;
    w <- (if has_weights d then (r <- at_ (t_w d) i ;; Ok (Some r)) else Ok None) ;;
    y <- at_ (t_y d) i ;;
    Ok (mkItem x y s k w).
  (** A for loop over the dataset: __getitem__ with 0, 1, ... until IndexError. *)
  Fixpoint items_from (fuel i : nat) (d : ds) : list item :=
    match fuel with
    | 0 => []
    | S f => match getitem d i with Ok x => x :: items_from f (S i) d | Err _ => [] end
    end.
  Definition items (d : ds) : list item := items_from (S (length (t_X d))) 0 d.

  (** Lines 1340-1363. *)
  Definition select_mask (d : ds) (mask : list bool) (return_weights : bool) : res ds :=
    X <- np_select mask (t_X d) ;;
    y <- np_select mask (t_y d) ;;
    sd <- np_select mask (t_sd d) ;;
    w <- (if has_weights d && return_weights then (r <- np_select mask (t_w d) ;; Ok (Some r)) else Ok None) ;;
    dataset X (Some y) (DomArr sd) w.

  (** Lines 1365-1430. *)
  Definition select_source (d : ds) rw := select_mask d (map (fun s => (0 <=? s)%Z) (t_sd d)) rw.
  Definition select_target (d : ds) rw := select_mask d (map (fun s => (s <? 0)%Z) (t_sd d)) rw.
  Definition select_domain (d : ds) (k : Z) rw := select_mask d (map (fun s => (s =? k)%Z) (t_sd d)) rw.
  Definition select_with_labels (d : ds) rw := select_mask d (t_has_y d) rw.
  (** Lines 1298-1338; the condition on the tensor is given by its value on each entry. *)
  Inductive cond := OnX (c : Row -> bool) | OnY (c : val -> bool) | OnDomain (c : Z -> bool) | OnWeight (c : R -> bool) | OnOther.
  Definition select_cond (d : ds) (c : cond) rw : res ds :=
    match c with
    | OnX c => select_mask d (map c (t_X d)) rw
    | OnY c => m <- np_map2 andb (t_has_y d) (map c (t_y d)) ;; select_mask d m rw
    | OnDomain c => select_mask d (map c (t_sd d)) rw
    | OnWeight c => if has_weights d then select_mask d (map c (t_w d)) rw else Err UnboundLocalError
    | OnOther => Err ValueError
    end.
  (** Lines 1432-1449. *)
  Definition per_domain_split (d : ds) rw : res (list (Z * ds)) :=
    mapM (fun k => r <- select_domain d k rw ;; Ok (k, r)) (unique (t_sd d)).
  (** Lines 1451-1474, 1476-1487. *)
  Definition add_weights (d : ds) (w : list R) : res ds :=
    let d' := mkDs (t_X d) (t_y d) (t_sd d) w (t_has_y d) (t_idx d) in
    if is_correct d' then Ok d' else Err AssertionError.
  Definition remove_weights (d : ds) : ds := mkDs (t_X d) (t_y d) (t_sd d) [] (t_has_y d) (t_idx d).

  (** ** Samplers *)

  (** The positions of the items with a given sign of the domain label (lines 203-208, 311-321). *)
  Definition side_indices (p : Z -> bool) (d : ds) : list nat := flatnonzero (map (fun it => p (i_sd it)) (items d)).

  (** Lines 201-222. Any other mode leaves num_samples unset: AttributeError at the first use. Python's [% 0] raises. *)
  Inductive sample_mode := SMax | SMin | SSource | STarget | SOther.
  Definition whole (n batch_size : nat) : nat := n - n mod batch_size.
  Definition num_samples (mode : sample_mode) (batch_size npos nneg : nat) : res nat :=
    let s := whole npos batch_size in
    let t := whole nneg batch_size in
    if batch_size =? 0 then Err ZeroDivisionError else
    match mode with
    | SMax => Ok (Nat.max s t) | SMin => Ok (Nat.min s t) | SSource => Ok s | STarget => Ok t
    | SOther => Err AttributeError
    end.

  (** An iterator over RandomSampler(indices): what is left of the current permutation, and how often iter() has been called;
      [perms k] is the permutation drawn by the k-th call. *)
  Definition rs_state : Type := list nat * nat.
  (** Lines 232-236: next(), with one restart at the end. Err RuntimeError: StopIteration escaping from the generator. *)
  Definition draw (perms : nat -> list nat) (indices : list nat) (st : rs_state) : res (nat * rs_state) :=
    match fst st with
    | k :: rest => i <- at_ indices k ;; Ok (i, (rest, snd st))
    | [] => match perms (snd st) with
            | k :: rest => i <- at_ indices k ;; Ok (i, (rest, S (snd st)))
            | [] => Err RuntimeError
            end
    end.
  (** Lines 231-243. *)
  Fixpoint balanced_loop (pp pn : nat -> list nat) (n : nat) (pos neg : list nat) (sp sn : rs_state) : res (list nat) :=
    match n with
    | 0 => Ok []
    | S n' => p <- draw pp pos sp ;;
              q <- draw pn neg sn ;;
              r <- balanced_loop pp pn n' pos neg (snd p) (snd q) ;;
              Ok (fst p :: fst q :: r)
    end.
  (** Lines 201-243; RandomSampler of an empty list raises ValueError. [pp], [pn]: the permutations drawn. *)
  Definition balanced_epoch (d : ds) (batch_size : nat) (mode : sample_mode) (pp pn : nat -> list nat) : res (list nat) :=
    let pos := side_indices (fun s => (0 <=? s)%Z) d in
    let neg := side_indices (fun s => (s <? 0)%Z) d in
    n <- num_samples mode batch_size (length pos) (length neg) ;;
    if (length pos =? 0) || (length neg =? 0) then Err ValueError
    else balanced_loop pp pn n pos neg (pp 0, 1) (pn 0, 1).
  (** Lines 249-294: batches of 2 * batch_size indices. *)
  Definition balanced_batches d batch_size mode pp pn : res (list (list nat)) :=
    e <- balanced_epoch d batch_size mode pp pn ;; Ok (chunks (2 * batch_size) e).

  (** Lines 308-333. [domain_used]: [Some true] is "source", [Some false] is "target". *)
  Definition only_epoch (d : ds) (batch_size : nat) (domain_used : option bool) (perm : list nat) : res (list nat) :=
    match domain_used with
    | None => Err ValueError
    | Some src =>
        let idx := side_indices (fun s => if src : bool then (0 <=? s)%Z else (s <? 0)%Z) d in
        if batch_size =? 0 then Err ZeroDivisionError else
        if length idx =? 0 then Err ValueError else
        mapM (at_ idx) (firstn (whole (length idx) batch_size) perm)
    end.
  (** Lines 339-384. *)
  Definition only_batches d batch_size domain_used perm : res (list (list nat)) :=
    e <- only_epoch d batch_size domain_used perm ;; Ok (chunks batch_size e).

  (** ** DomainAwareNet *)

  (** Lines 781-815, 840-861: array, dict, another (skorch) dataset giving rows, labels and domains, or a DeepDADataset. *)
  Inductive net_input :=
  | InArr (X : list Row)
  | InDict (X : list Row) (y : option (list val)) (sd : option dom_arg) (w : option (list R))
  | InDs (d : ds).
  Definition prepare_input (x : net_input) (y : option (list val)) (sd : dom_arg) (w : option (list R)) : res ds :=
    match x with
    | InArr X => dataset X y sd w
    | InDict X yd sdd wd => dataset_dict X yd sdd wd y sd w
    | InDs d => Ok d
    end.

  (** The outputs (after the non-linearity) of the module in evaluation mode for the items of a batch. *)
  Variable infer : list item -> list (list R).
  Variable batch_size : nat.

  (** Lines 638-641; skorch concatenates the outputs of the batches, np.concatenate([]) raises ValueError. *)
  Definition predict_proba (x : net_input) (sd : dom_arg) (w : option (list R)) (allow_source : bool) : res (list (list R)) :=
    d <- prepare_input x None sd w ;;
    d' <- (if allow_source then Ok d else select_target d true) ;;
    match chunks batch_size (items d') with
    | [] => Err ValueError
    | b => Ok (concat (map infer b))
    end.
  (** Lines 565-567. *)
  Definition predict x sd w allow_source : res (list nat) := p <- predict_proba x sd w allow_source ;; mapM np_argmax p.

  (** sklearn's accuracy_score; weights of total zero make np.average raise. *)
  Definition hit (v : val) (k : nat) : R := if val_eqb_q v (inject_Z (Z.of_nat k)) then 1%R else 0%R.
  Definition accuracy_score (y : list val) (pred : list nat) (w : option (list R)) : res R :=
    h <- np_map2 hit y pred ;;
    match w with
    | None => Ok (mean h)
    | Some w => n <- np_dot w h ;; if Reqb (vsum w) 0 then Err ZeroDivisionError else Ok (n / vsum w)%R
    end.
  (** Lines 700-708. *)
  Definition score (x : net_input) (y : list val) (sd : dom_arg) (w : option (list R)) (allow_source : bool) : res R :=
    d <- prepare_input x (Some y) sd w ;;
    d' <- (if allow_source then Ok d else select_target d true) ;;
    p <- predict (InDs d') sd None allow_source ;;
    accuracy_score y p w.
End Dataset.

(** ** Losses *)

(** A loss tensor: zero- or one-dimensional. *)
Inductive tensor := Scalar (r : R) | Vec (l : list R).

Section Criterion.
  Variables P D F : Type.
  Variable base_criterion : list P -> list val -> res tensor.
  (** Arguments of adapt_criterion in the order of lines 134-142. *)
  Variable adapt_criterion : list val -> list P -> list P -> option (list D) -> option (list D) -> option (list F) -> option (list F)
                             -> option (list nat) -> option (list nat) -> res R.
  Variable reg : R.

  (** [None] stays [None], a tensor is masked. *)
  Definition opt_select {A} (m : list bool) (o : option (list A)) : res (option (list A)) :=
    match o with None => Ok None | Some l => r <- np_select m l ;; Ok (Some r) end.
  Definition add_scalar (t : tensor) (r : R) : tensor :=
    match t with Scalar s => Scalar (s + r) | Vec l => Vec (map (fun s => s + r)%R l) end.

  (** base.py lines 82-143. *)
  Definition criterion_forward (train_on_target : bool) (y_pred : list P) (domain_pred : option (list D)) (features : option (list F))
             (sd : list Z) (idx : option (list nat)) (y_true : list val) : res tensor :=
    let src := map (fun s => (0 <=? s)%Z) sd in
    let tgt := map negb src in
    ps <- np_select src y_pred ;; pt <- np_select tgt y_pred ;;
    ds_ <- opt_select src domain_pred ;; dt <- opt_select tgt domain_pred ;;
    fs <- opt_select src features ;; ft <- opt_select tgt features ;;
    is_ <- opt_select src idx ;; it <- opt_select tgt idx ;;
    base <- (if train_on_target then (l <- np_select tgt y_true ;; base_criterion pt l)
             else (l <- np_select src y_true ;; base_criterion ps l)) ;;
    ys <- np_select src y_true ;;
    a <- adapt_criterion ys ps pt ds_ dt fs ft is_ it ;;
    Ok (add_scalar base (reg * a)).

  (** torch broadcasting of two one-dimensional tensors. *)
  Definition broadcast_mul (u v : list R) : res (list R) :=
    if length u =? length v then Ok (map2 Rmult u v)
    else match u, v with
         | [a], _ => Ok (map (Rmult a) v)
         | _, [b] => Ok (map (fun a => a * b)%R u)
         | _, _ => Err RuntimeError
         end.
  (** Mean of a tensor; [None] is NaN. *)
  Definition tensor_mean (t : tensor) : option R :=
    match t with Scalar r => Some r | Vec [] => None | Vec l => Some (mean l) end.

  (** Lines 863-897; [w]: the weights of the batch, if any. *)
  Definition get_loss (loss : tensor) (w : option (list R)) (sd : list Z) : res (option R) :=
    match w with
    | None => Ok (tensor_mean loss)
    | Some w =>
        sw <- np_select (map (fun s => (0 <? s)%Z) sd) w ;;
        match loss with
        | Scalar r => if 1 <? length sw then Err ValueError else Ok (tensor_mean (Vec (map (fun a => a * r)%R sw)))
        | Vec l => p <- broadcast_mul sw l ;; Ok (tensor_mean (Vec p))
        end
    end.
End Criterion.
