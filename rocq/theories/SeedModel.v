(** Model of the random generators behind the parameters random_state: which generator is used, when it is created, what is drawn from
    it and in which order (/repo/skada/model_selection.py, transformers.py, metrics.py, _utils.py, _reweight.py, _subspace.py,
    datasets/_samples_generator.py, datasets/_amazon_review.py, deep/utils.py). What is computed from the draws is in SplitModel and
    the other models. *)
From Coq Require Import List ZArith QArith Bool Arith Lia.
From Verif Require Import Np Labels UtilsModel SelectModel SplitModel.
Import ListNotations.
Local Open Scope nat_scope.

(** A parameter random_state: None, an int, or a RandomState instance (its name among the instances that exist). *)
Inductive random_state := RSNone | RSInt (z : Z) | RSInstance (i : nat).

Section Seed.
  (** numpy's generators (trusted base): states, seeding, rng.permutation(n) (rng.shuffle and rng.choice without replacement are applications
      of a permutation), rng.choice(np.arange(n), k) with replacement, and sklearn's _approximate_mode(counts, n, rng). torch's
      generators: torch.randperm(n). All are deterministic functions of the state of the generator. *)
  Variables G T : Type.
  Variable seeded : Z -> G.
  Variable permutation : nat -> G -> list nat * G.
  Variable choice_with : nat -> nat -> G -> list nat * G.
  Variable mode : list nat -> nat -> G -> list nat * G.
  Variable randperm : nat -> T -> list nat * T.

  (** numpy's global generator, the RandomState instances of the user, torch's global generator. *)
  Record world := mkWorld { w_global : G; w_instance : nat -> G; w_torch : T }.

  (** The generator a function holds: one of the world, or one it created itself. *)
  Inductive generator := Global | Instance (i : nat) | Own (g : G).

  (** numpy accepts seeds of 32 bits. *)
  Definition RandomState (z : Z) : res generator := if ((0 <=? z) && (z <? 2 ^ 32))%Z then Ok (Own (seeded z)) else Err ValueError.
  (** sklearn.utils.check_random_state (external). *)
  Definition check_random_state (rs : random_state) : res generator :=
    match rs with RSNone => Ok Global | RSInt z => RandomState z | RSInstance i => Ok (Instance i) end.
  (** np.random.RandomState(random_state) (external): None takes [entropy] from the system, an instance of RandomState is not a seed. *)
  Definition numpy_RandomState (entropy : G) (rs : random_state) : res generator :=
    match rs with RSNone => Ok (Own entropy) | RSInt z => RandomState z | RSInstance _ => Err TypeError end.

  (** Draw from a generator. *)
  Definition draw {A} (p : G -> A * G) (r : generator) (w : world) : A * generator * world :=
    match r with
    | Global => let (a, g) := p (w_global w) in (a, Global, mkWorld g (w_instance w) (w_torch w))
    | Instance i => let (a, g) := p (w_instance w i) in
                    (a, Instance i, mkWorld (w_global w) (fun j => if j =? i then g else w_instance w j) (w_torch w))
    | Own g0 => let (a, g) := p g0 in (a, Own g, w)
    end.

  (** rng.permutation for each of the sizes. *)
  Fixpoint draw_many (sizes : list nat) (g : G) : list (list nat) * G :=
    match sizes with
    | [] => ([], g)
    | n :: sizes' => let (p, g1) := permutation n g in let (ps, g2) := draw_many sizes' g1 in (p :: ps, g2)
    end.

  (** ** Generator functions: the splits are computed one by one, and [body i] is what the caller does with the world between split i and
      the next one. *)

  (** A loop [for _ in range(k): ...; yield ...] drawing from [r]; [one]: the body of the loop. *)
  Fixpoint run {S} (one : G -> res S * G) (r : generator) (body : nat -> world -> world) (i k : nat) (w : world) : res (list S) * world :=
    match k with
    | 0 => (Ok [], w)
    | Datatypes.S k' =>
        let '(x, r', w') := draw one r w in
        match x with
        | Err e => (Err e, w')
        | Ok s => let (y, w'') := run one r' body (Datatypes.S i) k' (body i w') in (l <- y ;; Ok (s :: l), w'')
        end
    end.

  (** model_selection.py lines 143-161 and 261-279: the indices of both sides and the numbers of training and test samples. *)
  Definition sides (sd : list Z) (test_size train_size : size_arg) : res ((list nat * list nat) * ((nat * nat) * (nat * nat))) :=
    m <- extract_source_indices sd ;;
    let source_idx := flatnonzero m in
    let target_idx := flatnonzero (map negb m) in
    ss <- validate_shuffle_split (length source_idx) test_size train_size ;;
    ts <- validate_shuffle_split (length target_idx) test_size train_size ;;
    Ok ((source_idx, target_idx), (ss, ts)).
  (** Lines 165-179 and 283-297. *)
  Definition partition_one (p : (list nat * list nat) * ((nat * nat) * (nat * nat))) (g : G) : res (list nat * list nat) * G :=
    let '((source_idx, target_idx), (ss, ts)) := p in
    let (ps, g1) := permutation (length source_idx) g in
    let (pt, g2) := permutation (length target_idx) g1 in
    (shuffle_partition source_idx target_idx ss ts ps pt, g2).

  (** Lines 448-468. *)
  Definition strat_draws (groups : list (list nat)) (counts : list nat) (n_train n_test : nat) (g : G) : res (list nat * list nat) * G :=
    let (n_i, g1) := mode counts n_train g in
    let (t_i, g2) := mode (map (fun p => fst p - snd p) (combine counts n_i)) n_test g1 in
    let (perms, g3) := draw_many counts g2 in
    match strat_groups groups perms n_i t_i with
    | Err e => (Err e, g3)
    | Ok r =>
        let (a, g4) := permutation (length (fst r)) g3 in
        let (b, g5) := permutation (length (snd r)) g4 in
        (strat_one groups (mkDraw n_i t_i perms a b), g5)
    end.

  (** Lines 549-593. *)
  Definition dom_draws (u : Q) (test_size train_size : size_arg) (ds dt : dict Z (list nat)) (g : G) : res (list nat * list nat) * G :=
    let (ps, g1) := draw_many (map (fun kv => length (snd kv)) ds) g in
    match undersample u ds ps with
    | Err e => (Err e, g1)
    | Ok s0 =>
        let (pt, g2) := draw_many (map (fun kv => length (snd kv)) dt) g1 in
        match undersample u dt pt with
        | Err e => (Err e, g2)
        | Ok t0 =>
            let (a, g3) := permutation (length s0) g2 in
            let (b, g4) := permutation (length t0) g3 in
            (domain_shuffle_one u test_size train_size ds dt (mkDomDraw ps pt a b), g4)
        end
    end.

  (** A splitter with its arguments but for the number of splits and random_state. *)
  Inductive splitter :=
  | SourceTarget (test_size train_size : size_arg)
  | StratifiedSplit (y : list Z) (test_size train_size : size_arg)
  | DomainSplit (under_sampling : Q) (test_size train_size : size_arg).

  (** What one split does, once the arguments are checked: lines 51-89 with 143-161, 384-445 and 543-547. *)
  Definition prepare (c : splitter) (n : nat) (sd : sd_arg) : res (G -> res (list nat * list nat) * G) :=
    match c with
    | SourceTarget test_size train_size =>
        sd1 <- check_X_domain n sd all_flags ;;
        sd2 <- check_X_domain n (SDArr sd1) all_flags ;;
        p <- sides sd2 test_size train_size ;;
        Ok (partition_one p)
    | StratifiedSplit y test_size train_size =>
        sd1 <- check_X_domain (length y) sd all_flags ;;
        nn <- validate_shuffle_split (length y) test_size train_size ;;
        let (n_train, n_test) := nn : nat * nat in
        let rows := combine y sd1 in
        let groups := unique_pairs rows in
        let n_groups := length groups in
        let inverse := map (fun r => index_of r groups) rows in
        let counts := bincount n_groups inverse in
        if existsb (fun c => c <? 2) counts then Err ValueError
        else if n_train <? n_groups then Err ValueError
        else if n_test <? n_groups then Err ValueError
        else Ok (strat_draws (split_at counts (stable_argsort n_groups inverse)) counts n_train n_test)
    | DomainSplit u test_size train_size =>
        if negb (Qle_bool 0 u && Qle_bool u 1) then Err ValueError
        else
          sd1 <- check_X_domain n sd all_flags ;;
          di <- extract_domains_indices_st sd1 ;;
          Ok (dom_draws u test_size train_size (fst di) (snd di))
    end.

  (** list(splitter.split(X, y, sample_domain)) for a splitter with n_splits = k: the generator is obtained once (lines 163, 446, 548). *)
  Definition split (c : splitter) (rs : random_state) (n : nat) (sd : sd_arg) (k : nat) (body : nat -> world -> world) (w : world)
    : res (list (list nat * list nat)) * world :=
    match prepare c n sd with
    | Err e => (Err e, w)
    | Ok one => match check_random_state rs with Err e => (Err e, w) | Ok r => run one r body 0 k w end
    end.

  (** LeaveOneDomainOut: _iter_indices obtains its generator anew for each domain left out (line 281). *)
  Definition lodo_step (rs : random_state) (sd : list Z) (domains : list Z) (test_size train_size : size_arg) (domain : Z) (w : world)
    : res (list nat * list nat) * world :=
    let split_idx := flatnonzero (lodo_mask domains domain sd) in
    match (split_sd <- np_take split_idx sd ;;
           sd2 <- check_X_domain (length split_idx) (SDArr split_sd) all_flags ;;
           p <- sides sd2 test_size train_size ;;
           r <- check_random_state rs ;;
           Ok (p, r)) with
    | Err e => (Err e, w)
    | Ok (p, r) =>
        let '(x, _, w') := draw (partition_one p) r w in
        (tt <- x ;; a <- np_take (fst tt) split_idx ;; b <- np_take (snd tt) split_idx ;; Ok (a, b), w')
    end.
  Fixpoint lodo_run (step : nat -> world -> res (list nat * list nat) * world) (body : nat -> world -> world) (i : nat) (domain_idx : list nat)
           (w : world) : res (list (list nat * list nat)) * world :=
    match domain_idx with
    | [] => (Ok [], w)
    | d :: rest =>
        let (x, w') := step d w in
        match x with
        | Err e => (Err e, w')
        | Ok s => let (y, w'') := lodo_run step body (S i) rest (body i w') in (l <- y ;; Ok (s :: l), w'')
        end
    end.
  (** Lines 229-259. *)
  Definition lodo_all (rs : random_state) (n : nat) (sd : sd_arg) (max_n_splits : nat) (test_size train_size : size_arg)
             (body : nat -> world -> world) (w : world) : res (list (list nat * list nat)) * world :=
    match (sd1 <- check_X_domain n sd all_flags ;; r <- check_random_state rs ;; Ok (sd1, r)) with
    | Err e => (Err e, w)
    | Ok (sd1, r) =>
        let domains := lodo_domains sd1 in
        let n_domains := length domains in
        let '(dperm, _, w1) := draw (permutation n_domains) r w in
        let domain_idx := if max_n_splits <? n_domains then firstn max_n_splits dperm else dperm in
        lodo_run (fun d w => match nth_error domains d with
                             | None => (Err IndexError, w)
                             | Some domain => lodo_step rs sd1 domains test_size train_size domain w
                             end) body 0 domain_idx w1
    end.

  (** ** Functions that draw once *)

  (** check_random_state(random_state) followed by draws from it. *)
  Definition once {A} (p : G -> res A * G) (rs : random_state) (w : world) : res A * world :=
    match check_random_state rs with Err e => (Err e, w) | Ok r => let '(x, _, w') := draw p r w in (x, w') end.

  (** _utils.py lines 218-227, on the list of rows of each array. *)
  Definition shuffle_arrays {A B} (X : list A) (y : list B) : random_state -> world -> res (list A * list B) * world :=
    once (fun g => let (indices, g') := permutation (length X) g in (X' <- np_take indices X ;; y' <- np_take indices y ;; Ok (X', y'), g')).
  (** metrics.py lines 748-749: the pairing of the target samples MixValScorer mixes. *)
  Definition mixval_pairs (n_target : nat) : random_state -> world -> res (list nat) * world :=
    once (fun g => let (p, g') := permutation n_target g in (Ok p, g')).
  (** metrics.py lines 436-443: DEVScorer splits the source samples with train_test_split (external, a ShuffleSplit: slices of one
      permutation). Result (train, validation). *)
  Definition dev_parts (n_source : nat) : random_state -> world -> res (list nat * list nat) * world :=
    once (fun g => match validate_shuffle_split n_source (SzFrac (33 # 100)) SzNone with
                   | Err e => (Err e, g)
                   | Ok nn => let (p, g') := permutation n_source g in (Ok (slice (snd nn) (snd nn + fst nn) p, firstn (snd nn) p), g')
                   end).
  (** transformers.py lines 48-63: the rows Subsampler keeps. *)
  Definition subsampler_rows (n : nat) (train_size : size_arg) : random_state -> world -> res (list nat) * world :=
    once (fun g => if keep_all train_size n then (Ok (seq 0 n), g) else
                   match validate_shuffle_split n SzNone train_size with
                   | Err e => (Err e, g)
                   | Ok nn => let (p, g') := permutation n g in (Ok (slice (snd nn) (snd nn + fst nn) p), g')
                   end).
  (** _subspace.py lines 99-105: both PCAs draw from one generator; [pca]: the components sklearn's (possibly randomised) PCA finds. *)
  Definition subspace_pcas {Rows C} (pca : Rows -> G -> res C * G) (Xs Xt : Rows) : random_state -> world -> res (C * C) * world :=
    once (fun g => let (a, g1) := pca Xs g in
                   match a with
                   | Err e => (Err e, g1)
                   | Ok cs => let (b, g2) := pca Xt g1 in (ct <- b ;; Ok (cs, ct), g2)
                   end).

  (** ** KLIEPReweightAdapter, _reweight.py lines 486-558 *)
  Section KLIEP.
    Variables Row Gamma Alpha : Type.
    (** Lines 505-527, for given centres: the optimisation; line 549-552 and 554: the likelihoods of a gamma on the folds, and the best one. *)
    Variable optim : Gamma -> list Row -> list Row -> list Row -> res Alpha.
    Variable lik : Gamma -> list (Alpha * list Row) -> res Q.
    Variable best : list (Gamma * Q) -> res Gamma.

    (** Lines 498-527. *)
    Definition weights_optimization (n_centers : nat) (gamma : Gamma) (Xs Xt : list Row) (rs : random_state) (w : world)
      : res (Alpha * list Row) * world :=
      once (fun g => let (idx, g') := choice_with (length Xt) (Nat.min (length Xt) n_centers) g in
                     (centers <- np_take idx Xt ;; alpha <- optim gamma Xs Xt centers ;; Ok (alpha, centers), g')) rs w.
    Fixpoint on_folds (n_centers : nat) (gamma : Gamma) (Xs : list Row) (folds : list (list Row)) (rs : random_state) (w : world)
      : res (list (Alpha * list Row)) * world :=
      match folds with
      | [] => (Ok [], w)
      | f :: folds' =>
          let (x, w1) := weights_optimization n_centers gamma Xs f rs w in
          match x with
          | Err e => (Err e, w1)
          | Ok a => let (y, w2) := on_folds n_centers gamma Xs folds' rs w1 in (l <- y ;; Ok (a :: l), w2)
          end
      end.
    Fixpoint on_gammas (n_centers : nat) (gammas : list Gamma) (Xs : list Row) (folds : list (list Row)) (rs : random_state) (w : world)
      : res (list (Gamma * Q)) * world :=
      match gammas with
      | [] => (Ok [], w)
      | gamma :: gammas' =>
          let (x, w1) := on_folds n_centers gamma Xs folds rs w in
          match (fits <- x ;; lik gamma fits) with
          | Err e => (Err e, w1)
          | Ok q => let (y, w2) := on_gammas n_centers gammas' Xs folds rs w1 in (l <- y ;; Ok ((gamma, q) :: l), w2)
          end
      end.
    (** Lines 486-496; [gammas]: the list, or one gamma, after scaling; the shuffled index of lines 532-534 is not used. [folds]: the
        training parts of cv.split(X_target), without randomness (a KFold). *)
    Definition kliep_fit_seeded (n_centers : nat) (gamma : Gamma + list Gamma) (Xs Xt : list Row) (folds : list (list Row)) (rs : random_state)
               (w : world) : res (Gamma * (Alpha * list Row)) * world :=
      let chosen :=
        match gamma with
        | inl gm => (Ok gm, w)
        | inr gammas =>
            let (s, w1) := once (fun g => let (p, g') := permutation (length Xt) g in (Ok p, g')) rs w in
            match s with
            | Err e => (Err e, w1)
            | Ok _ => let (x, w2) := on_gammas n_centers gammas Xs folds rs w1 in (l <- x ;; best l, w2)
            end
        end in
      match fst chosen with
      | Err e => (Err e, snd chosen)
      | Ok gm => let (y, w3) := weights_optimization n_centers gm Xs Xt rs (snd chosen) in (a <- y ;; Ok (gm, a), w3)
      end.
  End KLIEP.

  (** ** Data sets *)

  (** The generators of datasets/_samples_generator.py (lines 342, 494, 683, 817) and fetch_mnist_usps (_mnist_usps.py line 57) start with
      np.random.RandomState(random_state); [p]: what they draw and return. *)
  Definition make_dataset {A} (entropy : G) (p : G -> res A * G) (rs : random_state) (w : world) : res A * world :=
    match numpy_RandomState entropy rs with Err e => (Err e, w) | Ok r => let '(x, _, w') := draw p r w in (x, w') end.

  (** datasets/_amazon_review.py lines 257-281 (and _office_home.py lines 263-297): the rows of a loaded domain. *)
  Definition load_domain {A B} (shuffle : bool) (rs : random_state) (X : list A) (y : list B) (w : world) : res (list A * list B) * world :=
    if shuffle then shuffle_arrays X y rs w else (Ok (X, y), w).
  (** The default of the parameter random_state of the functions fetch_... (_amazon_review.py line 53, _office.py lines 101, 189, 237 and
      324, _office_home.py lines 54 and 140). *)
  Definition fetch_default : random_state := RSNone.

  (** ** SphericalKMeans, deep/utils.py lines 162-215 *)
  Section Spherical.
    Variable Centroids : Type.
    (** _run_single_kmean from the rows with the given indices: inertia and centroids. *)
    Variable single : list nat -> Q * Centroids.
    (** Lines 193-201. *)
    Fixpoint restarts (n k n_init : nat) (best : option (Q * Centroids)) (t : T) : option (Q * Centroids) * T :=
      match n_init with
      | 0 => (best, t)
      | S m =>
          let (p, t') := randperm n t in
          let r := single (firstn k p) in
          let best' := match best with None => Some r | Some b => if negb (Qle_bool (fst b) (fst r)) then Some r else best end in
          restarts n k m best' t'
      end.
    Definition spherical_fit (n k n_init : nat) (rs : random_state) (w : world) : option (Q * Centroids) * world :=
      let (r, t) := restarts n k n_init None (w_torch w) in (r, mkWorld (w_global w) (w_instance w) t).
  End Spherical.
End Seed.
Arguments Global {G}. Arguments Instance {G} i. Arguments Own {G} g.
