(** Specification vocabulary for the splitters (from SplitModel only argument types are used). *)
From Coq Require Import List ZArith QArith Bool Arith Sorting.Permutation Sorting.Sorted.
From Verif Require Import Np Labels Spec UtilsModel UtilsSpec SplitModel.
Import ListNotations.
Local Open Scope nat_scope.

Definition is_ceil (q : Q) (k : nat) : Prop :=
  (inject_Z (Z.of_nat k) - 1 < q)%Q /\ (q <= inject_Z (Z.of_nat k))%Q.
Definition is_floor (q : Q) (k : nat) : Prop :=
  (inject_Z (Z.of_nat k) <= q)%Q /\ (q < inject_Z (Z.of_nat k) + 1)%Q.

Definition times (q : Q) (n : nat) : Q := (q * inject_Z (Z.of_nat n))%Q.

(** The request is within the allowed ranges: integers strictly between 0 and n, fractions strictly between 0 and 1,
    two fractions sum to at most 1. *)
Definition in_range_size (n : nat) (s : size_arg) : Prop :=
  match s with
  | SzNone => True
  | SzInt z => (0 < z < Z.of_nat n)%Z
  | SzFrac q => (0 < q /\ q < 1)%Q
  end.
Definition possible (n : nat) (test_size train_size : size_arg) : Prop :=
  in_range_size n test_size /\ in_range_size n train_size /\
  match test_size, train_size with SzFrac a, SzFrac b => (a + b <= 1)%Q | _, _ => True end.

(** [n_train] and [n_test] are the sizes asked for on [n] samples: ceil(test_size*n), floor(train_size*n), the
    integers themselves, a missing one being the complement, and test_size = 0.1 when both are missing. *)
Definition sizes (n : nat) (test_size train_size : size_arg) (n_train n_test : nat) : Prop :=
  0 < n_train /\ 0 < n_test /\ n_train + n_test <= n /\
  match test_size with
  | SzInt z => Z.of_nat n_test = z
  | SzFrac q => is_ceil (times q n) n_test
  | SzNone => n_train + n_test = n
  end /\
  match train_size with
  | SzInt z => Z.of_nat n_train = z
  | SzFrac q => is_floor (times q n) n_train
  | SzNone => n_train + n_test = n
  end /\
  (test_size = SzNone -> train_size = SzNone -> is_ceil (times (1 # 10) n) n_test).

(** [p] is an outcome of [rng.permutation(n)]. *)
Definition is_perm (n : nat) (p : list nat) : Prop := Permutation p (seq 0 n).

(** Label of sample [i]. *)
Definition label (sd : list Z) (i : nat) : Z := nth i sd 0%Z.
(** Number of indices of [l] whose domain label satisfies [p]. *)
Definition count_in (p : Z -> bool) (sd : list Z) (l : list nat) : nat := how_many (fun i => p (label sd i)) l.

(** No repeated index, train and test disjoint, all in range. *)
Definition clean (n : nat) (train test : list nat) : Prop :=
  NoDup (train ++ test) /\ Forall (fun i => i < n) (train ++ test).

(** The split takes, among the samples satisfying [p], the sizes computed for the number of such samples. *)
Definition exact_on (p : Z -> bool) (sd : list Z) (test_size train_size : size_arg) (train test : list nat) : Prop :=
  sizes (how_many p sd) test_size train_size (count_in p sd train) (count_in p sd test).

(** Default sizes: at least one of the two is not given. *)
Definition complementary (test_size train_size : size_arg) : Prop := test_size = SzNone \/ train_size = SzNone.

Definition st_split (sd : list Z) (test_size train_size : size_arg) (r : list nat * list nat) : Prop :=
  let (train, test) := r in
  clean (length sd) train test /\
  exact_on is_source sd test_size train_size train test /\
  exact_on is_target sd test_size train_size train test /\
  (complementary test_size train_size -> Permutation (train ++ test) (seq 0 (length sd))).

(** Source samples of other domains than [d]. *)
Definition other_source (d x : Z) : bool := (0 <=? x)%Z && negb (x =? d)%Z.

(** A split that holds out domain [d]. *)
Definition lodo_split (sd : list Z) (test_size train_size : size_arg) (d : Z) (r : list nat * list nat) : Prop :=
  let (train, test) := r in
  clean (length sd) train test /\
  (forall i, In i (train ++ test) -> label sd i <> d) /\
  (forall i, In i (train ++ test) -> (label sd i < 0)%Z -> label sd i = (- d)%Z) /\
  exact_on (other_source d) sd test_size train_size train test /\
  exact_on (Z.eqb (- d)) sd test_size train_size train test /\
  (complementary test_size train_size ->
   forall i, i < length sd -> (0 <= label sd i)%Z -> label sd i <> d -> In i (train ++ test)).

(** Lexicographic order on (label, domain) groups. *)
Definition pair_lt (a b : Z * Z) : Prop := (fst a < fst b)%Z \/ (fst a = fst b /\ (snd a < snd b)%Z).

(** The distinct groups in increasing order. *)
Definition groups_of (rows gs : list (Z * Z)) : Prop :=
  StronglySorted pair_lt gs /\ (forall g, In g gs <-> In g rows).

Definition eq_pair (a b : Z * Z) : bool := (fst a =? fst b)%Z && (snd a =? snd b)%Z.
(** Size of a group, and number of indices of [l] in it. *)
Definition group_size (rows : list (Z * Z)) (g : Z * Z) : nat := how_many (eq_pair g) rows.
Definition group_in (rows : list (Z * Z)) (g : Z * Z) (l : list nat) : nat :=
  how_many (fun i => eq_pair g (nth i rows (0, 0)%Z)) l.

Definition total (l : list nat) : nat := fold_right Nat.add 0 l.

(** The contract of the allocation step and of the generator: [n_train] samples allocated to the groups without
    exceeding their sizes, [n_test] more without exceeding what remains, and genuine permutations. *)
Definition draw_ok (rows gs : list (Z * Z)) (n_train n_test : nat) (d : strat_draw) : Prop :=
  length (dr_n d) = length gs /\ length (dr_t d) = length gs /\
  Forall2 (fun g q => fst q + snd q <= group_size rows g) gs (combine (dr_n d) (dr_t d)) /\
  total (dr_n d) = n_train /\ total (dr_t d) = n_test /\
  Forall2 (fun g p => is_perm (group_size rows g) p) gs (dr_perms d) /\
  is_perm n_train (dr_train d) /\ is_perm n_test (dr_test d).

Definition strat_split (rows gs : list (Z * Z)) (n_train n_test : nat) (d : strat_draw) (r : list nat * list nat) : Prop :=
  let (train, test) := r in
  clean (length rows) train test /\ length train = n_train /\ length test = n_test /\
  (forall k g, nth_error gs k = Some g ->
     group_in rows g train = nth k (dr_n d) 0 /\ group_in rows g test = nth k (dr_t d) 0).

(** The distinct labels of one side, in increasing order. *)
Definition labels_where (p : Z -> bool) (sd ds : list Z) : Prop :=
  StronglySorted Z.lt ds /\ (forall d, In d ds <-> In d sd /\ p d = true).

(** Genuine permutations for one draw of DomainShuffleSplit: one per domain of each side and one per pooled side. *)
Definition dom_draw_ok (sd : list Z) (u : Q) (d : dom_draw) : Prop :=
  exists sources targets : list Z,
    labels_where is_source sd sources /\ labels_where is_target sd targets /\
    Forall2 (fun l p => is_perm (how_many (Z.eqb l) sd) p) sources (dd_s d) /\
    Forall2 (fun l p => is_perm (how_many (Z.eqb l) sd) p) targets (dd_t d) /\
    (forall ks, Forall2 (fun l k => is_floor (times u (how_many (Z.eqb l) sd)) k) sources ks -> is_perm (total ks) (dd_shs d)) /\
    (forall ks, Forall2 (fun l k => is_floor (times u (how_many (Z.eqb l) sd)) k) targets ks -> is_perm (total ks) (dd_sht d)).

(** A split obtained from a sub-sample [S] having the same fraction of every domain. *)
Definition under_split (sd : list Z) (u : Q) (test_size train_size : size_arg) (r : list nat * list nat) : Prop :=
  let (train, test) := r in
  clean (length sd) train test /\
  exists S, NoDup S /\ Forall (fun i => i < length sd) S /\
    (forall d, In d sd -> is_floor (times u (how_many (Z.eqb d) sd)) (count_in (Z.eqb d) sd S)) /\
    incl (train ++ test) S /\
    sizes (count_in is_source sd S) test_size train_size (count_in is_source sd train) (count_in is_source sd test) /\
    sizes (count_in is_target sd S) test_size train_size (count_in is_target sd train) (count_in is_target sd test) /\
    (complementary test_size train_size -> Permutation (train ++ test) S).

(** [train_size >= n]. *)
Definition at_least (train_size : size_arg) (n : nat) : Prop :=
  match train_size with
  | SzNone => False
  | SzInt z => (Z.of_nat n <= z)%Z
  | SzFrac q => (inject_Z (Z.of_nat n) <= q)%Q
  end.
