(** Model of the public functions fetch_office31_surf(_all), fetch_office31_decaf(_all), fetch_amazon_review(_all) and
    fetch_office_home(_all), on top of the loaders of FetchModel: names of domains, the loops over all domains, what is returned, the
    parsing of the csv file of Office-Home and the choice of the data folder. *)
From Coq Require Import String Ascii List ZArith QArith Bool Arith Lia.
From Verif Require Import Np Labels PipeModel DataModel FetchModel.
Import ListNotations.
Local Open Scope nat_scope.
Local Open Scope list_scope.

(** ** Names of domains *)

(** str.lower on ASCII letters; other characters are left alone (simplification). *)
Definition lower_ascii (c : ascii) : ascii :=
  let n := nat_of_ascii c in if (65 <=? n) && (n <=? 90) then ascii_of_nat (n + 32) else c.
Fixpoint lower (s : string) : string :=
  match s with EmptyString => EmptyString | String c s' => String (lower_ascii c) (lower s') end.

(** The values of Office31Domain (_office.py lines 84-87), AmazonReviewDomain (_amazon_review.py lines 41-45) and OfficeHomeDomain
    (_office_home.py lines 40-44), in the order of the class. *)
Definition office31_domains : list string := ["amazon"; "webcam"; "dslr"]%string.
Definition amazon_review_domains : list string := ["books"; "dvd"; "kitchen"; "elec"]%string.
Definition office_home_domains : list string := ["art"; "clipart"; "product"; "realworld"]%string.

(** The argument [domain]: a member of the enumeration (with that value), a string, or anything else (which has no method lower). *)
Inductive domain_arg := DMember (v : string) | DStr (s : string) | DOther.
(** _office.py lines 397-398, _amazon_review.py lines 199-200, _office_home.py lines 219-220: Enum(value) raises ValueError for a value
    that no member has. *)
Definition resolve (enum : list string) (a : domain_arg) : res string :=
  match a with
  | DMember v => Ok v
  | DStr s => if existsb (String.eqb (lower s)) enum then Ok (lower s) else Err ValueError
  | DOther => Err AttributeError
  end.

(** The loaders of FetchModel number the domains: position in the enumeration; a value not in it has the number after the last one. *)
Fixpoint number (enum : list string) (v : string) : Z :=
  match enum with [] => 0%Z | e :: r => if String.eqb e v then 0%Z else (1 + number r v)%Z end.

(** ** One domain, all domains *)
Section Public.
  Context {File Row : Type}.
  (** X, and y with its dtype. *)
  Definition table : Type := list Row * (ydt * list val).
  (** What a user gets: the pair (X, y), a Bunch with X, y and target_names, or a DomainAwareDataset. *)
  Inductive given := GPair (t : table) | GBunch (t : table) | GDataset (s : @dataset Row).
  Variable enum : list string.
  Variable program : list (action File).
  Variable load : string -> list File -> table + fexn.

  (** The pair of arrays (return_X_y=True): _office.py lines 397-427, _amazon_review.py lines 199-223. The domain is checked before
      anything is done on the disk. *)
  Definition fetch_arrays (d : disk File) (a : domain_arg) (c : call) : disk File * outcome table :=
    match resolve enum a with Err e => (d, Raised (Other e)) | Ok v => fetch program (load v) d c end.

  (** Registering one domain in a dataset. *)
  Definition register (s : @dataset Row) (v : string) (t : table) : res (@dataset Row) := add_domain s (mkDom (fst t) (Some (snd t))) (Some v).

  (** return_X_y; [as_dataset]: _office.py line 427 returns the Bunch of load_files, _amazon_review.py lines 222-227 and _office_home.py
      lines 243-248 return a DomainAwareDataset. *)
  Definition present (as_dataset return_X_y : bool) (v : string) (t : table) : outcome given :=
    if return_X_y then Returned (GPair t)
    else if as_dataset then match register empty_ds v t with Ok s => Returned (GDataset s) | Err e => Raised (Other e) end
    else Returned (GBunch t).
  Definition fetch_public (as_dataset return_X_y : bool) (d : disk File) (a : domain_arg) (c : call) : disk File * outcome given :=
    match fetch_arrays d a c with
    | (d', Returned t) => (d', match resolve enum a with Ok v => present as_dataset return_X_y v t | Err e => Raised (Other e) end)
    | (d', Raised e) => (d', Raised e)
    | (d', Interrupted) => (d', Interrupted)
    end.

  (** _fetch_office31_all (_office.py lines 366-385) and _fetch_amazon_review_all (_amazon_review.py lines 171-189): the same arguments
      for every domain. *)
  Fixpoint fetch_loop (doms : list string) (d : disk File) (c : call) (s : @dataset Row) : disk File * outcome (@dataset Row) :=
    match doms with
    | [] => (d, Returned s)
    | v :: r =>
        match fetch_arrays d (DMember v) c with
        | (d', Returned t) => match register s v t with Ok s' => fetch_loop r d' c s' | Err e => (d', Raised (Other e)) end
        | (d', Raised e) => (d', Raised e)
        | (d', Interrupted) => (d', Interrupted)
        end
    end.
  Definition fetch_all (d : disk File) (c : call) : disk File * outcome (@dataset Row) := fetch_loop enum d c empty_ds.
End Public.
Arguments GPair {Row}. Arguments GBunch {Row}. Arguments GDataset {Row}.

(** ** The three data sets *)

(** Office-31. load_files returns integer labels. *)
Definition office31_load {Row} (by_name : list (ofile Row) -> list (ofile Row)) perm dim caltech (p : preset) (v : string) (fs : list (ofile Row)) : @table Row + fexn :=
  match load_office31 Row by_name perm dim caltech (number office31_domains v) p fs with
  | inl b => inl (u_X b, (YInt, map (fun k => VNum (inject_Z (Z.of_nat k))) (u_y b)))
  | inr e => inr e
  end.

(** Amazon reviews: labels of type float32 (_amazon_review.py lines 273-276). *)
Definition amazon_load {Row} perm (v : string) (fs : list (afile Row)) : @table Row + fexn :=
  match load_amazon Row perm (number amazon_review_domains v) fs with
  | inl (X, y) => inl (X, (YFloat, map (fun k => VNum (inject_Z k)) y))
  | inr e => inr e
  end.

(** Office-Home. The labels are the strings of the csv file (np.array(labels), _office_home.py line 324), an array of neither integers nor
    floats; [code]: the number standing for a string. *)
Section Home.
  Context {Row : Type}.
  Variable code : string -> Z.
  Variable perm : option (nat -> list nat).
  Definition hline : Type := line Row string.
  Definition home_table (l : list (Row * string)) : @table Row := (map fst l, (YOther, map (fun p => VNum (inject_Z (code (snd p)))) l)).
  Definition home_load (v : string) (ls : list hline) : @table Row + fexn := inl (home_table (home_one perm ls (number office_home_domains v))).
  (** Lines 202-208. *)
  Fixpoint home_register (s : @dataset Row) (l : list (string * list (Row * string))) : res (@dataset Row) :=
    match l with
    | [] => Ok s
    | (v, rows) :: r => s' <- register s v (home_table rows) ;; home_register s' r
    end.
  Definition home_domains_of (ls : list hline) : list (string * list (Row * string)) :=
    combine office_home_domains (map snd (home_all perm (map (number office_home_domains) office_home_domains) ls)).
  Definition home_load_all (ls : list hline) : @dataset Row + fexn :=
    match home_register empty_ds (home_domains_of ls) with Ok s => inl s | Err e => inr (Other e) end.
End Home.

(** parse_office_home_csv, _office_home.py lines 301-327. [rows]: the rows csv.reader yields, lists of strings. [float_of]: conversion of a
    field to a float32; np.array refuses fields that are no numbers and rows of different lengths (ValueError). [None]: next(reader) on an
    empty file raises StopIteration. The domain of a line is numbered, in lower case, as np.char.lower(domains) == domain.value compares
    it (lines 203 and 275). *)
Section Csv.
  Context {F : Type}.
  Variable float_of : string -> option F.
  (** row[:-2], row[-2], row[-1]. *)
  Definition split_row (row : list string) : res (list string * string * string) :=
    let n := length row in
    match nth_error row (n - 2), nth_error row (n - 1) with
    | Some y, Some d => if 2 <=? n then Ok (firstn (n - 2) row, y, d) else Err IndexError
    | _, _ => Err IndexError
    end.
  Definition floats (l : list string) : res (list F) := mapM (fun s => match float_of s with Some x => Ok x | None => Err ValueError end) l.
  Definition parse_csv (rows : list (list string)) : option (res (list (line (list F) string))) :=
    match rows with
    | [] => None
    | _ :: rows =>
        Some (parts <- mapM split_row rows ;;
              X <- mapM (fun p => floats (fst (fst p))) parts ;;
              if forallb (fun x => length x =? length (nth 0 X [])) X
              then Ok (map (fun q => mkLine (fst q) (snd (fst (snd q))) (number office_home_domains (lower (snd (snd q))))) (combine X parts))
              else Err ValueError)
    end.
End Csv.

(** ** The data folder: get_data_home, _base.py lines 50-81. [env]: the value of SKADA_DATA_FOLDER; [expand]: os.path.expanduser; the
    folders that exist are a list of paths. *)
Definition get_data_home {P} (eqb : P -> P -> bool) (default : P) (expand : P -> P) (env : option P) (folders : list P) (arg : option P) : P * list P :=
  let p := expand (match arg with Some p => p | None => match env with Some p => p | None => default end end) in
  (p, if existsb (eqb p) folders then folders else p :: folders).
