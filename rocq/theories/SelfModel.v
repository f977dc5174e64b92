(** Model of /repo/skada/_self_labeling.py (DASVMClassifier) and /repo/skada/_gradual_da.py (GradualEstimator).
    The base estimator and the transport method are external: they are the [Variable]s of the sections. Reals, no rounding. *)
From Coq Require Import String List ZArith QArith Bool Arith Lia Reals Lra.
From Verif Require Import Np Labels UtilsModel SelectModel RVec.
Import ListNotations.
Local Open Scope nat_scope.
Local Open Scope list_scope.

(** ** DASVM *)
Section DASVM.
  Variable Row Est : Type.
  (** [fitE X y]: a clone of base_estimator fitted on (X, y) (fitting may raise); [predictE], [decisionE], [probaE]: the methods of
      a fitted estimator, row by row (simplification: a binary classifier that treats rows one by one and does not raise). *)
  Variable fitE : list Row -> list val -> res Est.
  Variable predictE : Est -> Row -> val.
  Variable decisionE : Est -> Row -> R.
  Variable probaE : Est -> Row -> R * R.
  (** Equality test of line 228. *)
  Variable leqb : val -> val -> bool.

  (** _self_labeling.py lines 101-103: the shifting loop over all positions [ll]. *)
  Definition shift_indices (condition : list bool) (idx : list nat) : list nat :=
    fold_left (fun idx lc => if snd lc : bool then idx else map (fun i => if fst lc <=? i then S i else i) idx)
              (combine (seq 0 (length condition)) condition) idx.

  (** Line 98, then 101-103. [cols]: the columns of [d]; np.unique sorts and removes duplicates. *)
  Definition candidates (condition : list bool) (cols : list (list R)) : res (list nat) :=
    sel <- mapM (np_select condition) cols ;;
    am <- mapM np_argmax sel ;;
    Ok (shift_indices condition (map Z.to_nat (unique (map Z.of_nat am)))).

  (** Lines 97-108: the body repeated; [indices_list] is updated in place, [condition] is not. *)
  Fixpoint repeat_select (k : nat) (condition : list bool) (cols : list (list R)) (indices : list bool) : res (list bool) :=
    match k with
    | 0 => Ok indices
    | S k' => idx <- candidates condition cols ;;
              ind' <- np_setidx idx (repeat true (length idx)) indices ;;
              repeat_select k' condition cols ind'
    end.

  (** Lines 89-108. self.n_class is 2 (line 159); [(c + 1) / 2] is ceil(c / 2). *)
  Definition find_points (k : nat) (indices : list bool) (cols : list (list R)) (cond : list bool) : res (list bool) :=
    condition <- np_map2 andb (map negb indices) cond ;;
    repeat_select (Nat.min k ((count condition + 1) / 2)) condition cols indices.

  (** Lines 110-122. *)
  Definition get_X_y (est : Est) (added deleted : list bool) (Xs Xt : list Row) (ys : list val) : res (list Row * list val) :=
    xs <- np_select (map negb deleted) Xs ;;
    xt <- np_select added Xt ;;
    ls <- np_select (map negb deleted) ys ;;
    Ok (xs ++ xt, ls ++ map (predictE est) xt).

  (** A decision array: one column per class, or a 1-D array. *)
  Inductive decisions := Dec1 (d : list R) | Dec2 (c0 c1 : list R).
  Definition dec_cols (d : decisions) : list (list R) := match d with Dec1 l => [l] | Dec2 a b => [a; b] end.

  (** Lines 124-135. *)
  Definition get_decision (est : Est) (X : list Row) (indices : list bool) : res decisions :=
    if 0 <? count (map negb indices) then
      rest <- np_select (map negb indices) X ;;
      d <- np_setmask (map negb indices) (map (decisionE est) rest) (repeat 1%R (length X)) ;;
      Ok (Dec2 (map (fun t => - t + 1)%R d) (map (fun t => t + 1)%R d))
    else Ok (Dec1 (repeat 1%R (length X))).

  Definition inside (t : R) : bool := Rltb t 1 && Rltb 0 t.
  (** Lines 192-201 and 246-251. np.sum(.., axis=1) of a 1-D array raises AxisError, a ValueError. *)
  Definition in_margin (d : decisions) : res (list bool) :=
    match d with
    | Dec1 _ => Err ValueError
    | Dec2 a b => Ok (map2 (fun s t => inside s || inside t) a b)
    end.

  (** Lines 225-230. *)
  Definition unadd (new old : Est) (Xt : list Row) (added : list bool) : list bool :=
    map2 (fun x (a : bool) => if a then leqb (predictE new x) (predictE old x) else false) Xt added.

  Record dstate := mkD { d_est : Est; d_deleted : list bool; d_added : list bool; d_margin : list bool }.

  (** Lines 215-254: one iteration. [decisions_target_] (line 239) is not used afterwards. *)
  Definition dasvm_iter (k : nat) (Xs Xt : list Row) (ys : list val) (s : dstate) : res dstate :=
    xy <- get_X_y (d_est s) (d_added s) (d_deleted s) Xs Xt ys ;;
    new <- fitE (fst xy) (snd xy) ;;
    let added := unadd new (d_est s) Xt (d_added s) in
    ds <- get_decision new Xs (d_deleted s) ;;
    dt <- get_decision new Xt added ;;
    deleted' <- find_points k (d_deleted s) (dec_cols ds) (repeat true (length (d_deleted s))) ;;
    mg <- in_margin dt ;;
    added' <- find_points k added (dec_cols dt) mg ;;
    Ok (mkD new deleted' added' mg).

  (** Lines 211-258; [fuel] is max_iter - 1. *)
  Fixpoint dasvm_loop (fuel k : nat) (Xs Xt : list Row) (ys : list val) (s : dstate) : res dstate :=
    match fuel with
    | 0 => Ok s
    | S f => if count (d_margin s) =? 0 then Ok s
             else s' <- dasvm_iter k Xs Xt ys s ;; dasvm_loop f k Xs Xt ys s'
    end.

  (** Lines 164-204: fit on the sources, first selection. *)
  Definition dasvm_first (k : nat) (Xs Xt : list Row) (ys : list val) : res dstate :=
    e0 <- fitE Xs ys ;;
    let ds := map (decisionE e0) Xs in
    let dt := map (decisionE e0) Xt in
    deleted <- find_points k (repeat false (length Xs)) [map Ropp ds; ds] (repeat true (length Xs)) ;;
    mg <- in_margin (Dec2 (map Ropp dt) dt) ;;
    added <- find_points k (repeat false (length Xt))
               [map (fun t => - Rabs (- t - 2 + 1))%R dt; map (fun t => - Rabs (t - 2 + 1))%R dt] mg ;;
    Ok (mkD e0 deleted added mg).

  (** base_estimator (fitted in place by line 173) and base_estimator_ (line 272). *)
  Record fitted := mkFitted { f_base : Est; f_final : Est }.

  (** Lines 137-274. The lists kept by save_estimators / save_indices are not modelled. *)
  Definition dasvm_core (k max_iter : nat) (Xs Xt : list Row) (ys : list val) : res fitted :=
    base <- fitE Xs ys ;;
    s0 <- dasvm_first k Xs Xt ys ;;
    s <- dasvm_loop (max_iter - 1) k Xs Xt ys s0 ;;
    final <- fitE Xt (map (predictE (d_est s)) Xt) ;;
    Ok (mkFitted base final).
  Definition dasvm_fit (k max_iter : nat) (X : list Row) (y : list val) (sda : sd_arg) : res fitted :=
    sd <- check_X_y_domain (length X) y sda true all_flags ;;
    px <- source_target_split [Some X] sd ;;
    py <- source_target_split [Some y] sd ;;
    match px, py with
    | [Some Xs; Some Xt], [Some ys; _] => dasvm_core k max_iter Xs Xt ys
    | _, _ => Err ValueError
    end.

  (** Lines 276-280, 291-296, 298-303. *)
  Definition dasvm_predict (f : fitted) (X : list Row) : list val := map (predictE (f_final f)) X.
  Definition dasvm_predict_proba (f : fitted) (X : list Row) : list (R * R) := map (probaE (f_base f)) X.
  Definition dasvm_decision_function (f : fitted) (X : list Row) : list R := map (decisionE (f_final f)) X.
End DASVM.

(** ** Gradual domain adaptation *)

(** int(): truncation towards zero. *)
Definition py_int (x : R) : Z := if Rle_dec 0 x then Int_part x else (- Int_part (- x))%Z.

(** np.sort. *)
Fixpoint insert_R (x : R) (l : list R) : list R :=
  match l with [] => [x] | y :: l' => if Rle_dec x y then x :: l else y :: insert_R x l' end.
Definition np_sort (l : list R) : list R := fold_right insert_R [] l.

(** _gradual_da.py lines 146-153: (max_index, mask). [m] is the number of columns. *)
Definition cut_off_gamma (alpha : R) (gamma : list (list R)) (m : nat) : res (Z * list (list bool)) :=
  let n := length gamma in
  let size := n * m in
  let max_index := py_int (Rmin (alpha * INR (n + m)) (IZR (Z.of_nat size - 1))) in
  let sorted := np_sort (concat gamma) in
  p <- py_index (length sorted) (- max_index - 1)%Z ;;
  let threshold := nth p sorted 0%R in
  Ok (max_index, map (map (fun g => Rleb threshold g)) gamma).

(** Lines 155-167. *)
Definition advanced_cut_off_gamma (gamma : list (list R)) (m : nat) : res (Z * list (list bool)) :=
  let n := length gamma in
  rm <- mapM np_argmax gamma ;;
  cm <- mapM (fun j => np_argmax (map (fun r => nth j r 0%R) gamma)) (seq 0 m) ;;
  let mask := map (fun i => map (fun j => (j =? nth i rm 0) || (i =? nth j cm 0)) (seq 0 m)) (seq 0 n) in
  Ok ((Z.of_nat (count (concat mask)) - 1)%Z, mask).

(** np.argwhere of a matrix. *)
Definition argwhere (mask : list (list bool)) : list (nat * nat) :=
  concat (map (fun ir : nat * list bool => map (fun j => (fst ir, j)) (flatnonzero (snd ir)))
              (combine (seq 0 (length mask)) mask)).

Definition np_getrow {A} (l : list A) (i : nat) : res A := match nth_error l i with Some x => Ok x | None => Err IndexError end.

(** Lines 196-199: the loop filling X_step. *)
Fixpoint fill_steps (n_steps step : nat) (Xs Xt : list (list R)) (idx : nat) (pairs : list (nat * nat)) (out : list (list R))
  : res (list (list R)) :=
  match pairs with
  | [] => Ok out
  | (i, j) :: rest =>
      a <- np_getrow Xs i ;;
      b <- np_getrow Xt j ;;
      r <- np_map2 (fun x y => (INR n_steps - INR step) * x / INR n_steps + INR step * y / INR n_steps)%R a b ;;
      if idx <? length out then fill_steps n_steps step Xs Xt (S idx) rest (update idx r out) else Err IndexError
  end.

(** Lines 191-199: X_step; [width] is X.shape[1]. *)
Definition data_at_step (n_steps step : nat) (max_index : Z) (mask : list (list bool)) (width : nat) (Xs Xt : list (list R))
  : res (list (list R)) :=
  if (max_index + 1 <? 0)%Z then Err ValueError
  else fill_steps n_steps step Xs Xt 0 (argwhere mask) (repeat (repeat 0%R width) (Z.to_nat (max_index + 1))).

Section Gradual.
  Variable Est : Type.
  (** [coupling Xs ys Xt yt]: ot_method.fit then coupling_; [fitE max_iter X y]: base_estimator.fit with that max_iter. *)
  Variable coupling : list (list R) -> list val -> list (list R) -> list val -> res (list (list R)).
  Variable fitE : nat -> list (list R) -> list val -> res Est.
  Variable predictE : Est -> list R -> val.

  (** The estimator object: base_estimator.max_iter ([None]: base_estimator is None) and what has been fitted. *)
  Record gstate := mkG { g_max_iter : option nat; g_fitted : option Est }.

  (** Lines 134-143; also returns the data generated at each step (intermediate_data_). *)
  Fixpoint gradual_loop (steps : list nat) (n_steps : nat) (max_index : Z) (mask : list (list bool)) (width : nat)
           (Xs Xt : list (list R)) (mi : nat) (est : Est) : res (nat * Est * list (list (list R) * list val)) :=
    match steps with
    | [] => Ok (mi, est, [])
    | t :: rest =>
        X_step <- data_at_step n_steps t max_index mask width Xs Xt ;;
        let y_step := map (predictE est) X_step in
        est' <- fitE (mi + 100) X_step y_step ;;
        r <- gradual_loop rest n_steps max_index mask width Xs Xt (mi + 100) est' ;;
        Ok (fst r, (X_step, y_step) :: snd r)
    end.

  (** Lines 89-144. sample_domain is given (None raises at line 107). The default estimator of lines 118-128 has max_iter = 100.
      Only base estimators with a max_iter attribute are modelled (line 138 raises AttributeError otherwise). *)
  Definition gradual_fit (alpha : R) (n_steps : nat) (advanced : bool) (width : nat) (st : gstate)
             (X : list (list R)) (y : list val) (sd : list Z) : res (gstate * list (list (list R) * list val)) :=
    let source := map (fun d => (0 <=? d)%Z) sd in
    let target := map (fun d => (d <? 0)%Z) sd in
    Xs <- np_select source X ;; ys <- np_select source y ;;
    Xt <- np_select target X ;; yt <- np_select target y ;;
    gamma <- coupling Xs ys Xt yt ;;
    cm <- (if advanced then advanced_cut_off_gamma gamma (length Xt) else cut_off_gamma alpha gamma (length Xt)) ;;
    let mi := match g_max_iter st with None => 100 | Some k => k end in
    e0 <- fitE mi Xs ys ;;
    r <- gradual_loop (seq 1 n_steps) n_steps (fst cm) (snd cm) width Xs Xt mi e0 ;;
    let '(mi', est, data) := r in
    Ok (mkG (Some mi') (Some est), data).

  (** Lines 216-236. check_is_fitted raises NotFittedError. *)
  Definition gradual_predict (st : gstate) (X : list (list R)) : res (list val) :=
    match g_max_iter st, g_fitted st with
    | None, _ => Err ValueError
    | Some _, None => Err NotFittedError
    | Some _, Some e => Ok (map (predictE e) X)
    end.
End Gradual.
