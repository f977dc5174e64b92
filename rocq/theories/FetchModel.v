(** Model of the loaders of real data sets: /repo/skada/datasets/_office.py, _office_home.py, _amazon_review.py, _mnist_usps.py, and
    _shuffle_arrays in /repo/skada/_utils.py lines 218-228. The disk is a state that calls change step by step, so that a call may be
    interrupted at any point. Names of domains, categories and files are integers, numbered in lexicographic order. *)
From Coq Require Import List ZArith Bool Arith Lia Reals Lra.
From Verif Require Import Np GenModel.
Import ListNotations.
Local Open Scope nat_scope.
Local Open Scope list_scope.

(** Exceptions not among those of Np. *)
Inductive fexn := OSErr | FileNotFound | Other (e : exn).

(** ** The cache on disk *)
Section Cache.
  Variables File Data : Type.
  (** dataset_dir exists; the archive downloaded; the files in the folder "amazon_review" of dataset_dir; the other files in dataset_dir. *)
  Record disk := mkDisk { k_dir : bool; k_archive : bool; k_nested : list File; k_files : list File }.
  Definition clean : disk := mkDisk false false [] [].
  Inductive action := MakeDir | Download | Extract (f : File) | ExtractNested (f : File) | Move | RemoveNested | RemoveArchive.
  (** Each action happens completely or not at all (in particular the download and the extraction of one file: simplification). *)
  Definition act (d : disk) (a : action) : disk :=
    match a with
    | MakeDir => mkDisk true (k_archive d) (k_nested d) (k_files d)
    | Download => mkDisk (k_dir d) true (k_nested d) (k_files d)
    | Extract f => mkDisk (k_dir d) (k_archive d) (k_nested d) (k_files d ++ [f])
    | ExtractNested f => mkDisk (k_dir d) (k_archive d) (k_nested d ++ [f]) (k_files d)
    | Move => match k_nested d with [] => d | f :: r => mkDisk (k_dir d) (k_archive d) r (k_files d ++ [f]) end
    | RemoveNested => mkDisk (k_dir d) (k_archive d) [] (k_files d)
    | RemoveArchive => mkDisk (k_dir d) false (k_nested d) (k_files d)
    end.
  Definition run (p : list action) (d : disk) : disk := fold_left act p d.

  (** _office.py lines 402-412 and 430-437, _office_home.py lines 228-236 and 251-262 (and 185-193): the archive holds [fs]. *)
  Definition office_program (fs : list File) : list action := [MakeDir; Download] ++ map Extract fs ++ [RemoveArchive].
  (** _amazon_review.py lines 205-213 and 230-254. *)
  Definition amazon_program (fs : list File) : list action :=
    [MakeDir; Download] ++ map ExtractNested fs ++ map (fun _ => Move) fs ++ [RemoveNested; RemoveArchive].

  (** What a call ends with; [Interrupted]: the process was killed, or an exception was raised by the download or the extraction. *)
  Inductive outcome := Returned (r : Data) | Raised (e : fexn) | Interrupted.
  Variable program : list action.
  Variable load : list File -> Data + fexn.
  Definition load_outcome (fs : list File) : outcome := match load fs with inl r => Returned r | inr e => Raised e end.
  (** _office.py lines 399-427, _office_home.py lines 221-248, _amazon_review.py lines 201-227. [stop]: the number of actions done before
      the interruption, if there is one. *)
  Record call := mkCall { c_download : bool; c_stop : option nat }.
  Definition fetch (d : disk) (c : call) : disk * outcome :=
    if k_dir d then (d, load_outcome (k_files d))
    else if negb (c_download c) then (d, Raised OSErr)
    else match c_stop c with
         | Some k => if k <? length program then (run (firstn k program) d, Interrupted)
                     else let d' := run program d in (d', load_outcome (k_files d'))
         | None => let d' := run program d in (d', load_outcome (k_files d'))
         end.
  (** Several calls, one after the other. *)
  Fixpoint calls (d : disk) (cs : list call) : disk * list outcome :=
    match cs with
    | [] => (d, [])
    | c :: cs' => let (d1, o) := fetch d c in let (d2, os) := calls d1 cs' in (d2, o :: os)
    end.
End Cache.
Arguments mkDisk {File}. Arguments k_dir {File}. Arguments k_files {File}. Arguments k_nested {File}. Arguments k_archive {File}. Arguments clean {File}.
Arguments run {File}. Arguments office_program {File}. Arguments amazon_program {File}. Arguments fetch {File Data}. Arguments calls {File Data}.
Arguments Returned {Data}. Arguments Raised {Data}. Arguments Interrupted {Data}. Arguments load_outcome {File Data}.

(** np.arange(n) shuffled, then arr[indices] (_utils.py lines 218-228); [perm n]: the shuffled positions. *)
Definition take_rows {A} (idx : list nat) (l : list A) : list A := flat_map (fun i => match nth_error l i with Some x => [x] | None => [] end) idx.

(** ** Office-31: _office.py lines 440-480 *)
Section Office31.
  Variable Row : Type.
  (** A .mat file: domain, category (folder), file name, whether the name matches the pattern of the loader, last dimension of the array,
      the array. *)
  Record ofile := mkOF { of_dom : Z; of_cat : Z; of_name : Z; of_match : bool; of_dim : nat; of_row : Row }.
  (** sorted(listdir(folder)). *)
  Variable by_name : list ofile -> list ofile.
  (** The shuffled positions, if shuffle=True. *)
  Variable perm : option (nat -> list nat).
  Variable dim : nat.
  Inductive preset := CatNone | CatAll | CatCaltech | CatList (l : list Z).
  Variable caltech : list Z.
  Definition categories_of (p : preset) : option (list Z) :=
    match p with CatNone | CatAll => None | CatCaltech => Some caltech | CatList l => Some l end.
  Record bunch := mkBunch { u_X : list Row; u_y : list nat; u_names : list Z; u_warned : bool }.
  (** sklearn's load_files without content; a folder exists as soon as a file of it was extracted. *)
  Definition folders (fs : list ofile) (dom : Z) (cats : option (list Z)) : list Z :=
    filter (fun c => match cats with None => true | Some l => existsb (Z.eqb c) l end)
           (unique (map of_cat (filter (fun f => (of_dom f =? dom)%Z) fs))).
  Definition documents (fs : list ofile) (dom : Z) (names : list Z) : list (ofile * nat) :=
    flat_map (fun lc => map (fun f => (f, fst lc)) (by_name (filter (fun f => (of_dom f =? dom)%Z && (of_cat f =? snd lc)%Z) fs)))
             (combine (seq 0 (length names)) names).
  Fixpoint read (l : list (ofile * nat)) : (list Row * list nat) + fexn :=
    match l with
    | [] => inl ([], [])
    | (f, y) :: r =>
        if of_match f then
          if of_dim f =? dim then match read r with inl (X, ys) => inl (of_row f :: X, y :: ys) | inr e => inr e end
          else inr (Other AssertionError)
        else read r
    end.
  Definition load_office31 (dom : Z) (p : preset) (fs : list ofile) : bunch + fexn :=
    if negb (existsb (fun f => (of_dom f =? dom)%Z) fs) then inr FileNotFound else
    let cats := categories_of p in
    let names := folders fs dom cats in
    let docs := documents fs dom names in
    let docs := match perm with None => docs | Some pm => take_rows (pm (length docs)) docs end in
    match read docs with
    | inr e => inr e
    | inl ([], _) => inr (Other ValueError)
    | inl (X, y) => inl (mkBunch X y names (match cats with None => false | Some l => existsb (fun c => negb (existsb (Z.eqb c) names)) l end))
    end.
End Office31.
Arguments mkOF {Row}. Arguments mkBunch {Row}. Arguments u_X {Row}. Arguments u_y {Row}. Arguments u_names {Row}. Arguments u_warned {Row}.

(** ** Office-Home: _office_home.py lines 176-299. A line of the csv file: features, label, domain in lower case. *)
Section OfficeHome.
  Variables Row Label : Type.
  Record line := mkLine { l_x : Row; l_y : Label; l_dom : Z }.
  Variable perm : option (nat -> list nat).
  Definition shuffled {A} (l : list A) : list A := match perm with None => l | Some pm => take_rows (pm (length l)) l end.
  Definition part (d : Z) (ls : list line) : list line := filter (fun l => (l_dom l =? d)%Z) ls.
  (** Lines 265-282: selection, then shuffling. *)
  Definition home_one (ls : list line) (d : Z) : list (Row * Label) := map (fun l => (l_x l, l_y l)) (shuffled (part d ls)).
  (** Lines 195-208 and 285-298: shuffling, then selection; [doms]: the values of OfficeHomeDomain. *)
  Definition home_all (doms : list Z) (ls : list line) : list (Z * list (Row * Label)) :=
    map (fun d => (d, map (fun l => (l_x l, l_y l)) (part d (shuffled ls)))) doms.
End OfficeHome.
Arguments mkLine {Row Label}. Arguments l_x {Row Label}. Arguments l_y {Row Label}. Arguments l_dom {Row Label}.
Arguments home_one {Row Label}. Arguments home_all {Row Label}. Arguments part {Row Label}.

(** ** Amazon reviews: _amazon_review.py lines 171-189 and 257-280. The file of a domain: features and labels. *)
Section Amazon.
  Variable Row : Type.
  Record afile := mkAF { af_dom : Z; af_X : list Row; af_y : list Z }.
  Variable perm : option (nat -> list nat).
  Definition load_amazon (dom : Z) (fs : list afile) : (list Row * list Z) + fexn :=
    match find (fun f => (af_dom f =? dom)%Z) fs with
    | None => inr FileNotFound
    | Some f => match perm with
                | None => inl (af_X f, af_y f)
                | Some pm => let idx := pm (length (af_X f)) in inl (take_rows idx (af_X f), take_rows idx (af_y f))
                end
    end.
End Amazon.
Arguments mkAF {Row}. Arguments af_dom {Row}. Arguments af_X {Row}. Arguments af_y {Row}.

(** ** MNIST and USPS: _mnist_usps.py lines 54-120. [draw n k]: rng.choice of k among n positions with replacement, which is numpy's
    default; the positions are whole floats, which torch converts to integers. Labels are not negative. *)
Section Digits.
  Context {Row Gen : Type}.
  Variable draw : nat -> nat -> Gen -> list nat * Gen.
  (** Lines 73-85 and 103-113 for one of the two data sets. *)
  Definition digits (n_samples : R) (n_classes : Z) (data : list (Row * Z)) (g : Gen) : list (Row * Z) * Gen :=
    let kept := filter (fun p => (snd p <? n_classes)%Z) data in
    let (idx, g') := draw (length kept) (Z.to_nat (py_int (n_samples * INR (length kept)))) g in
    (take_rows idx kept, g').
  Definition load_mnist_usps (n_samples : R) (n_classes : Z) (mnist usps : list (Row * Z)) (g : Gen) : res (list (Row * Z) * list (Row * Z)) :=
    if (if Rlt_dec n_samples 0 then true else if Rlt_dec 1 n_samples then true else false) then Err ValueError
    else let (a, g1) := digits n_samples n_classes mnist g in let (b, _) := digits n_samples n_classes usps g1 in Ok (a, b).
End Digits.
