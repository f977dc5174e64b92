(** Model of the domain-aware cross-validation splitters, /repo/skada/model_selection.py, and of the subsamplers of
    /repo/skada/transformers.py.

    The random generator is an oracle: every call [rng.permutation(n)] returns an arbitrary list, given as an
    argument of the model (theorems assume it is a permutation of 0..n-1). Fractions are exact rationals (the code
    multiplies floats). Only the number of rows of X matters. *)
From Coq Require Import List ZArith QArith Qround Bool Arith Lia.
From Verif Require Import Np Labels UtilsModel SelectModel.
Import ListNotations.
Local Open Scope nat_scope.

(** A [test_size] / [train_size] argument: None, an int, or a float. *)
Inductive size_arg := SzNone | SzInt (z : Z) | SzFrac (q : Q).

Definition sz_is_none (s : size_arg) : bool := match s with SzNone => true | _ => false end.

(** The range tests of sklearn's [_validate_shuffle_split] on one argument. *)
Definition sz_bad (n : nat) (s : size_arg) : bool :=
  match s with
  | SzNone => false
  | SzInt z => (Z.of_nat n <=? z)%Z || (z <=? 0)%Z
  | SzFrac q => Qle_bool q 0 || Qle_bool 1 q
  end.

(** sklearn.model_selection._split._validate_shuffle_split (external code called at
    /repo/skada/model_selection.py lines 149-161, 267-279, 401-406 and 567-579), with the default test size 0.1 of
    lines 49, 141, 195 and 382. Result (n_train, n_test). *)
Definition validate_shuffle_split (n : nat) (test_size train_size : size_arg) : res (nat * nat) :=
  let test_size := if sz_is_none test_size && sz_is_none train_size then SzFrac (1 # 10) else test_size in
  if sz_bad n test_size then Err ValueError
  else if sz_bad n train_size then Err ValueError
  else if match train_size, test_size with
          | SzFrac a, SzFrac b => negb (Qle_bool (a + b) 1)
          | _, _ => false
          end then Err ValueError
  else
    let nz := Z.of_nat n in
    let n_test := match test_size with
                  | SzFrac q => Qceiling (q * inject_Z nz) | SzInt z => z | SzNone => 0%Z end in
    let n_train := match train_size with
                   | SzFrac q => Qfloor (q * inject_Z nz) | SzInt z => z | SzNone => 0%Z end in
    let (n_train, n_test) :=
      match train_size, test_size with
      | SzNone, _ => (nz - n_test, n_test)%Z
      | _, SzNone => (n_train, nz - n_train)%Z
      | _, _ => (n_train, n_test)
      end in
    if (nz <? n_train + n_test)%Z then Err ValueError
    else if (n_train =? 0)%Z then Err ValueError
    else Ok (Z.to_nat n_train, Z.to_nat n_test).

(** [a[lo:hi]] for non-negative bounds. *)
Definition slice {A} (lo hi : nat) (l : list A) : list A := firstn (hi - lo) (skipn lo l).

(** The random partition of one split, lines 165-179 and 283-297; [ps], [pt]: the two permutations drawn. Result
    (train, test). *)
Definition shuffle_partition (source_idx target_idx : list nat) (ss ts : nat * nat) (ps pt : list nat)
  : res (list nat * list nat) :=
  let (n_source_train, n_source_test) := ss in
  let (n_target_train, n_target_test) := ts in
  sp <- np_take ps source_idx ;;
  let ind_source_train := slice n_source_test (n_source_test + n_source_train) sp in
  let ind_source_test := firstn n_source_test sp in
  tp <- np_take pt target_idx ;;
  let ind_target_train := slice n_target_test (n_target_test + n_target_train) tp in
  let ind_target_test := firstn n_target_test tp in
  Ok (ind_source_train ++ ind_target_train, ind_source_test ++ ind_target_test).

(** [_iter_indices] of SourceTargetShuffleSplit (lines 143-179) and of LeaveOneDomainOut (lines 261-297); [perms]:
    the permutations drawn for each split, so its length is n_splits. The generator is run to exhaustion. *)
Definition iter_indices (sd : list Z) (test_size train_size : size_arg) (perms : list (list nat * list nat))
  : res (list (list nat * list nat)) :=
  m <- extract_source_indices sd ;;
  let source_idx := flatnonzero m in
  let target_idx := flatnonzero (map negb m) in
  ss <- validate_shuffle_split (length source_idx) test_size train_size ;;
  ts <- validate_shuffle_split (length target_idx) test_size train_size ;;
  mapM (fun p => shuffle_partition source_idx target_idx ss ts (fst p) (snd p)) perms.

(** SourceTargetShuffleSplit.split: [BaseDomainAwareShuffleSplit.split] (lines 51-89) then [_iter_indices]; [n] rows.
    The second [check_X_domain] (line 144) has the same flags and re-checks the derived labels. *)
Definition source_target_shuffle_split (n : nat) (sd : sd_arg) (test_size train_size : size_arg)
           (perms : list (list nat * list nat)) : res (list (list nat * list nat)) :=
  sd1 <- check_X_domain n sd all_flags ;;
  sd2 <- check_X_domain n (SDArr sd1) all_flags ;;
  iter_indices sd2 test_size train_size perms.

(** [_get_domain_labels], lines 299-300. *)
Definition lodo_domains (sd : list Z) : list Z := unique (filter (fun d => (0 <=? d)%Z) sd).

(** The boolean [split_idx] of lines 246-252. *)
Definition lodo_mask (domains : list Z) (target_domain : Z) (sd : list Z) : list bool :=
  map (fun x => existsb (fun domain => (x =? (if (domain =? target_domain)%Z then - domain else domain))%Z) domains) sd.

(** One iteration of the loop of lines 244-259. *)
Definition lodo_one (sd : list Z) (domains : list Z) (test_size train_size : size_arg)
           (target_domain : Z) (perms : list nat * list nat) : res (list nat * list nat) :=
  let split_idx := flatnonzero (lodo_mask domains target_domain sd) in
  split_sd <- np_take split_idx sd ;;
  sd2 <- check_X_domain (length split_idx) (SDArr split_sd) all_flags ;;
  r <- iter_indices sd2 test_size train_size [perms] ;;
  match r with
  | [(train, test)] =>
      a <- np_take train split_idx ;;
      b <- np_take test split_idx ;;
      Ok (a, b)
  | _ => Err ValueError
  end.

(** LeaveOneDomainOut.split, lines 199-259, for [max_n_splits >= 0]; [dperm]: the permutation of the domains drawn at
    line 241; [perms]: the permutations of each split (at least as many as splits). *)
Definition leave_one_domain_out (n : nat) (sd : sd_arg) (max_n_splits : nat) (test_size train_size : size_arg)
           (dperm : list nat) (perms : list (list nat * list nat)) : res (list (list nat * list nat)) :=
  sd1 <- check_X_domain n sd all_flags ;;
  let domains := lodo_domains sd1 in
  let n_domains := length domains in
  let domain_idx := if max_n_splits <? n_domains then firstn max_n_splits dperm else dperm in
  mapM (fun ip =>
          match nth_error domains (fst ip) with
          | None => Err IndexError
          | Some target_domain => lodo_one sd1 domains test_size train_size target_domain (snd ip)
          end) (combine domain_idx perms).

(** LeaveOneDomainOut.get_n_splits, lines 302-323. *)
Definition lodo_get_n_splits (sd : list Z) (max_n_splits : nat) : nat := Nat.min max_n_splits (length (lodo_domains sd)).

(** ** StratifiedDomainShuffleSplit, lines 384-468 *)

Definition pair_ltb (a b : Z * Z) : bool :=
  (fst a <? fst b)%Z || ((fst a =? fst b)%Z && (snd a <? snd b)%Z).
Definition pair_eqb (a b : Z * Z) : bool := (fst a =? fst b)%Z && (snd a =? snd b)%Z.

(** [np.unique(groups_array, axis=0)]: sorted distinct rows. *)
Fixpoint insert_pair (z : Z * Z) (l : list (Z * Z)) : list (Z * Z) :=
  match l with
  | [] => [z]
  | h :: t => if pair_ltb z h then z :: h :: t else if pair_eqb z h then h :: t else h :: insert_pair z t
  end.
Definition unique_pairs (l : list (Z * Z)) : list (Z * Z) := fold_right insert_pair [] l.

(** Position of a row among the distinct rows ([return_inverse]). *)
Fixpoint index_of (z : Z * Z) (l : list (Z * Z)) : nat :=
  match l with [] => 0 | h :: t => if pair_eqb z h then 0 else S (index_of z t) end.

(** [np.bincount] for values below [k]. *)
Definition bincount (k : nat) (l : list nat) : list nat :=
  map (fun i => length (filter (Nat.eqb i) l)) (seq 0 k).

(** [np.argsort(kind="mergesort")] of values below [k]: the stable sort, described bucket by bucket. *)
Definition stable_argsort (k : nat) (l : list nat) : list nat :=
  concat (map (fun i => flatnonzero (map (Nat.eqb i) l)) (seq 0 k)).

(** [np.split(a, np.cumsum(counts)[:-1])]: consecutive chunks of the given sizes, the last one taking the rest. *)
Fixpoint split_at {A} (counts : list nat) (a : list A) : list (list A) :=
  match counts with
  | [] => []
  | [_] => [a]
  | c :: counts' => firstn c a :: split_at counts' (skipn c a)
  end.

(** What is drawn for one split: the two allocations returned by sklearn's [_approximate_mode] (external), one
    permutation per group, and the two final permutations. *)
Record strat_draw := mkDraw { dr_n : list nat; dr_t : list nat; dr_perms : list (list nat);
                              dr_train : list nat; dr_test : list nat }.

(** The loop over the groups, lines 458-463; [take(mode="clip")] never clips on a permutation. *)
Fixpoint strat_groups (groups perms : list (list nat)) (ns ts : list nat) : res (list nat * list nat) :=
  match groups, perms, ns, ts with
  | g :: groups', p :: perms', n :: ns', t :: ts' =>
      pg <- np_take p g ;;
      r <- strat_groups groups' perms' ns' ts' ;;
      Ok (firstn n pg ++ fst r, slice n (n + t) pg ++ snd r)
  | [], _, _, _ => Ok ([], [])
  | _, _, _, _ => Err IndexError
  end.

(** One split, lines 448-468. *)
Definition strat_one (groups : list (list nat)) (d : strat_draw) : res (list nat * list nat) :=
  r <- strat_groups groups (dr_perms d) (dr_n d) (dr_t d) ;;
  train <- np_take (dr_train d) (fst r) ;;
  test <- np_take (dr_test d) (snd r) ;;
  Ok (train, test).

(** [StratifiedDomainShuffleSplit.split], lines 384-468 and 470-472. Simplification: integer labels (1-D). *)
Definition stratified_domain_shuffle_split (y : list Z) (sd : sd_arg) (test_size train_size : size_arg)
           (draws : list strat_draw) : res (list (list nat * list nat)) :=
  let n := length y in
  sd1 <- check_X_domain n sd all_flags ;;
  nn <- validate_shuffle_split n test_size train_size ;;
  let (n_train, n_test) := nn : nat * nat in
  let rows := combine y sd1 in
  let groups := unique_pairs rows in
  let n_groups := length groups in
  let inverse := map (fun r => index_of r groups) rows in
  let counts := bincount n_groups inverse in
  if existsb (fun c => c <? 2) counts then Err ValueError
  else if n_train <? n_groups then Err ValueError
  else if n_test <? n_groups then Err ValueError
  else
    let group_indices := split_at counts (stable_argsort n_groups inverse) in
    mapM (strat_one group_indices) draws.

(** ** DomainShuffleSplit, lines 540-593 *)

(** [rng.choice(v, k, replace=False)] is [v[rng.permutation(len(v))[:k]]] (numpy RandomState). *)
Definition choice (v : list nat) (k : nat) (p : list nat) : res (list nat) :=
  if length v <? k then Err ValueError else np_take (firstn k p) v.

(** [int(len(v) * under_sampling)] for a non-negative product. *)
Definition under_count (u : Q) (k : nat) : nat := Z.to_nat (Qfloor (inject_Z (Z.of_nat k) * u)).

(** Lines 550-561: the sub-sampled indices of one side; [np.concatenate] of nothing is a ValueError. *)
Definition undersample (u : Q) (doms : dict Z (list nat)) (perms : list (list nat)) : res (list nat) :=
  match doms with
  | [] => Err ValueError
  | _ => parts <- mapM (fun vp : (Z * list nat) * list nat =>
                          choice (snd (fst vp)) (under_count u (length (snd (fst vp)))) (snd vp)) (combine doms perms) ;;
         Ok (concat parts)
  end.

(** What is drawn for one split: per-domain permutations and the two shuffles. *)
Record dom_draw := mkDomDraw { dd_s : list (list nat); dd_t : list (list nat);
                               dd_shs : list nat; dd_sht : list nat }.

(** One split, lines 549-593. *)
Definition domain_shuffle_one (u : Q) (test_size train_size : size_arg) (ds dt : dict Z (list nat)) (d : dom_draw)
  : res (list nat * list nat) :=
  s0 <- undersample u ds (dd_s d) ;;
  t0 <- undersample u dt (dd_t d) ;;
  source_idx <- np_take (dd_shs d) s0 ;;
  target_idx <- np_take (dd_sht d) t0 ;;
  ss <- validate_shuffle_split (length source_idx) test_size train_size ;;
  ts <- validate_shuffle_split (length target_idx) test_size train_size ;;
  let (n_source_train, n_source_test) := ss : nat * nat in
  let (n_target_train, n_target_test) := ts : nat * nat in
  Ok (slice n_source_test (n_source_test + n_source_train) source_idx
      ++ slice n_target_test (n_target_test + n_target_train) target_idx,
      firstn n_source_test source_idx ++ firstn n_target_test target_idx).

(** Constructor check (lines 540-541) followed by split (lines 543-593). *)
Definition domain_shuffle_split (n : nat) (sd : sd_arg) (u : Q) (test_size train_size : size_arg)
           (draws : list dom_draw) : res (list (list nat * list nat)) :=
  if negb (Qle_bool 0 u && Qle_bool u 1) then Err ValueError
  else
    sd1 <- check_X_domain n sd all_flags ;;
    di <- extract_domains_indices_st sd1 ;;
    mapM (domain_shuffle_one u test_size train_size (fst di) (snd di)) draws.

(** ** Subsamplers, /repo/skada/transformers.py *)

Section Subsample.
  Context {R : Type}.

  Inductive subsampler := Plain | Domain | Stratified.

  (** [train_size >= n]. *)
  Definition keep_all (train_size : size_arg) (n : nat) : bool :=
    match train_size with
    | SzInt z => (Z.of_nat n <=? z)%Z
    | SzFrac q => Qle_bool (inject_Z (Z.of_nat n)) q
    | SzNone => false
    end.

  (** Output of fit_transform: X, y, and the entries sample_domain / sample_weight when present. *)
  Record sub_out := mkSub { so_X : list R; so_y : list val; so_sd : option (list Z); so_sw : option (list val) }.

  (** The three [fit_transform], lines 44-69, 109-133 and 172-197: they differ by the splitter, and by which
      sample_domain is returned untouched in the first case (lines 50-57 and 115-122: the argument;
      178-185: the checked one). [idx]: result of the splitter on the checked data, an oracle. The length-mismatched
      sample_domain that [check_X_y_domain] lets through is an IndexError when indexed. [train_size] None would be a
      TypeError. *)
  Definition subsample (k : subsampler) (train_size : size_arg) (idx : list Z -> res (list nat))
             (X : list R) (y : list val) (sd : option (list Z)) (sw : option (list val)) : res sub_out :=
    let sda := match sd with Some l => SDArr l | None => SDNone end in
    sd2 <- check_X_y_domain (length X) y sda true all_flags ;;
    match train_size with
    | SzNone => Err TypeError
    | _ =>
      if keep_all train_size (length X) then
        Ok (mkSub X y (match k with Stratified => Some sd2 | _ => sd end) sw)
      else
        i <- idx sd2 ;;
        X' <- np_take i X ;;
        y' <- np_take i y ;;
        sd' <- np_take i sd2 ;;
        sw' <- opt_map (np_take i) sw ;;
        Ok (mkSub X' y' (Some sd') sw')
    end.

  (** The splitter of StratifiedDomainSubsampler, /repo/skada/transformers.py lines 187-191, for integer labels: the
      training part of the first split of StratifiedDomainShuffleSplit. *)
  Definition stratified_idx (yz : list Z) (train_size : size_arg) (d : strat_draw) (sd : list Z) : res (list nat) :=
    r <- stratified_domain_shuffle_split yz (SDArr sd) SzNone train_size [d] ;;
    match r with (train, _) :: _ => Ok train | [] => Err ValueError end.

  (** The splitter of Subsampler, lines 59-63: sklearn's ShuffleSplit (external) takes a slice of a permutation. *)
  Definition plain_idx (n : nat) (train_size : size_arg) (perm : list nat) (sd : list Z) : res (list nat) :=
    nn <- validate_shuffle_split n SzNone train_size ;;
    Ok (slice (snd nn) (snd nn + fst nn) perm).

  (** [transform], lines 71-75, 135-139, 199-203. *)
  Definition sub_transform (X : list R) : list R := X.
End Subsample.
