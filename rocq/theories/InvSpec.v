(** Vocabulary of C161-C163: renaming the domains of a data set. *)
From Coq Require Import String List ZArith Bool.
From Verif Require Import Np Labels UtilsModel SelectModel.
Import ListNotations.

(** A renaming that keeps the role (non-negative: source, negative: target) of every domain. Two domains may receive the same name. *)
Definition keeps_roles (f : Z -> Z) : Prop := forall d, (0 <= f d)%Z <-> (0 <= d)%Z.
(** One that keeps domains apart, and one that keeps their order. *)
Definition keeps_apart (f : Z -> Z) : Prop := forall d e, f d = f e -> d = e.
Definition keeps_order (f : Z -> Z) : Prop := forall d e, (d < e)%Z -> (f d < f e)%Z.

(** The renamed [sample_domain] argument: no domain information stays none. *)
Definition rename (f : Z -> Z) (a : sd_arg) : sd_arg :=
  match a with SDNone => SDNone | SDScalar z => SDScalar (f z) | SDArr l => SDArr (map f l) end.
(** The renamed keyword arguments: every array of domain labels is renamed, nothing else. *)
Definition rename_value (f : Z -> Z) (v : pval) : pval := match v with PDom l => PDom (map f l) | _ => v end.
Definition rename_params (f : Z -> Z) (ps : params) : params := map (fun kv => (fst kv, rename_value f (snd kv))) ps.
Definition rename_container {R} (f : Z -> Z) (c : @container R) : container := mkC (c_X c) (c_labels c) (rename_params f (c_meta c)).
Definition rename_call {R} (f : Z -> Z) (k : @call R) : call := mkCall (k_X k) (k_y k) (rename_params f (k_params k)).
(** The same exception, or the image of the result. *)
Definition res_map {A B} (g : A -> B) (r : res A) : res B := match r with Ok a => Ok (g a) | Err e => Err e end.
(** What a selector passes on: a routing that looks at the names of the parameters and hands the values over. *)
Definition name_blind (f : Z -> Z) (route : params -> res params) : Prop := forall ps, route (rename_params f ps) = res_map (rename_params f) (route ps).
