(** Model of src/CompositeLikelihood.cxx: several log-likelihoods whose models each contain one source of a
    common type; the spectral shape of that source is shared, its normalisation and everything else is not.

    Parameters hold reals and have no bounds here (optimizers::Parameter::setValue refuses values outside its
    bounds by an exception, which ends the call).  The free derivatives a component itself reports are those
    the clusters Binned (C47) and Unbin (C19, C51) establish; here a component carries its value and its
    gradient as functions of all its parameter values. *)
From Coq Require Import Reals String List Bool Arith.
From Verif Require Import Base.
Import ListNotations.
Local Open Scope string_scope.
Local Open Scope list_scope.
Local Open Scope outcome_scope.

(** optimizers::Parameter, the members used here: name, value, free flag. *)
Record par := mk_par { p_name : string; p_val : R; p_free : bool }.

(** optimizers::Function, the members used here: parameters in order, name of the normalisation parameter
    (normPar()), and genericName(). *)
Record spectrum := mk_spec { sp_pars : list par; sp_norm : string; sp_kind : string }.

(** A LogLike as CompositeLikelihood sees it: sources() in name order, value and gradient as functions of
    all parameter values (sources in order, parameters in order).  [c_cached] is true for a component that
    keeps a model computed at an earlier moment (BinnedLikelihood.cxx:213: the derivatives use m_model as it
    is when m_modelIsCurrent); [c_at] holds the parameter values that model was computed for, None when
    m_modelIsCurrent is false.  [c_grad m v] is what getFreeDerivs reports for parameter values v when the
    model was computed at m. *)
Record comp := mk_comp {
  c_srcs : list (string * spectrum);
  c_fun : list R -> R;
  c_grad : list R -> list R -> list R;
  c_cached : bool;
  c_at : option (list R) }.

(** CompositeLikelihood.h:62-70: the components in map order with the name of the common source in each, and
    the two names taken from the first one added. *)
Record composite := mk_composite {
  k_comps : list (comp * string);
  k_norm : string;
  k_kind : string;
  k_pars : list par }.

Definition empty_composite : composite := mk_composite [] "" "" [].

(** sources().find(name), a std::map. *)
Fixpoint find_src (name : string) (l : list (string * spectrum)) : option spectrum :=
  match l with
  | [] => None
  | (n, s) :: r => if String.eqb n name then Some s else find_src name r
  end.

(** replaces the spectrum found under [name] (the sources are pointers: a change is seen through the map). *)
Fixpoint put_src (name : string) (s : spectrum) (l : list (string * spectrum)) : list (string * spectrum) :=
  match l with
  | [] => []
  | (n, t) :: r => if String.eqb n name then (n, s) :: r else (n, t) :: put_src name s r
  end.

(** optimizers::Function::getFreeParams *)
Definition free_pars (s : spectrum) : list par := filter p_free (sp_pars s).

(** optimizers::Function::normPar() = parameter(m_normParName): throws when there is no such parameter. *)
Definition norm_par (s : spectrum) : outcome par :=
  match find (fun p => String.eqb (p_name p) (sp_norm s)) (sp_pars s) with
  | Some p => Ok p
  | None => Throw
  end.

(** optimizers::Function::setParam(name, value): the parameter of that name, free or not. *)
Fixpoint set_param (name : string) (v : R) (l : list par) : outcome (list par) :=
  match l with
  | [] => Throw
  | p :: r => if String.eqb (p_name p) name then Ok (mk_par (p_name p) v (p_free p) :: r)
              else r' <- set_param name v r ;; Ok (p :: r')
  end.

Definition set_sp (name : string) (v : R) (s : spectrum) : outcome spectrum :=
  l <- set_param name v (sp_pars s) ;; Ok (mk_spec l (sp_norm s) (sp_kind s)).

(** all parameter values of a component, in order *)
Definition all_pars (l : list (string * spectrum)) : list par := concat (map (fun s => sp_pars (snd s)) l).
Definition all_vals (c : comp) : list R := map p_val (all_pars (c_srcs c)).

Definition with_srcs (c : comp) (l : list (string * spectrum)) : comp :=
  mk_comp l (c_fun c) (c_grad c) (c_cached c) (c_at c).
Definition with_at (c : comp) (a : option (list R)) : comp :=
  mk_comp (c_srcs c) (c_fun c) (c_grad c) (c_cached c) a.
Definition with_comps (k : composite) (l : list (comp * string)) : composite :=
  mk_composite l (k_norm k) (k_kind k) (k_pars k).

(** CompositeLikelihood.cxx:20-39.  The map is ordered by the address of the component: [pos] is the place
    where the new one is inserted.  (Adding the same object again only replaces the name; not modelled.) *)
Definition addComponent (pos : nat) (srcName : string) (c : comp) (k : composite) : outcome composite :=
  match find_src srcName (c_srcs c) with
  | None => Throw
  | Some s =>
      k' <- match k_comps k with
            | [] => np <- norm_par s ;; Ok (mk_composite [] (p_name np) (sp_kind s) (k_pars k))
            | _ => if String.eqb (k_kind k) (sp_kind s) then Ok k else Throw
            end ;;
      Ok (with_comps k' (firstn pos (k_comps k') ++ (c, srcName) :: skipn pos (k_comps k')))
  end.

(** LogLike::value(): recomputes the model (BinnedLikelihood.cxx:165, 589). *)
Definition comp_value (c : comp) : comp * R :=
  ((if c_cached c then with_at c (Some (all_vals c)) else c), c_fun c (all_vals c)).

(** CompositeLikelihood.cxx:41-48. *)
Fixpoint value_loop (l : list (comp * string)) (acc : R) : list (comp * string) * R :=
  match l with
  | [] => ([], acc)
  | (c, n) :: r =>
      let (c', v) := comp_value c in
      let (r', acc') := value_loop r (acc + v)%R in
      ((c', n) :: r', acc')
  end.

Definition value (k : composite) : composite * R :=
  let (l, v) := value_loop (k_comps k) 0%R in (with_comps k l, v).

(** The free parameters of the sources that are not the common one, CompositeLikelihood.cxx:72-86. *)
Definition other_free (cn : comp * string) : list par :=
  concat (map (fun s => if String.eqb (fst s) (snd cn) then [] else free_pars (snd s)) (c_srcs (fst cn))).

(** find(it->second)->second->spectrum(): dereferences end() when the source was removed from the component. *)
Definition common (cn : comp * string) : outcome spectrum :=
  match find_src (snd cn) (c_srcs (fst cn)) with Some s => Ok s | None => UB end.

(** CompositeLikelihood.cxx:94-99 *)
Definition shape_free (norm : string) (s : spectrum) : list par :=
  filter (fun p => negb (String.eqb (p_name p) norm)) (free_pars s).

(** CompositeLikelihood.cxx:103-110 *)
Fixpoint norms_free (l : list (comp * string)) : outcome (list par) :=
  match l with
  | [] => Ok []
  | cn :: r =>
      s <- common cn ;;
      np <- norm_par s ;;
      rest <- norms_free r ;;
      Ok (if p_free np then np :: rest else rest)
  end.

(** CompositeLikelihood.cxx:63-111, for a vector that is empty on entry. *)
Definition getFreeParams (k : composite) : outcome (list par) :=
  match k_comps k with
  | [] => Throw
  | cn :: _ =>
      s <- common cn ;;
      ns <- norms_free (k_comps k) ;;
      Ok (concat (map other_free (k_comps k)) ++ shape_free (k_norm k) s ++ ns)
  end.

(** CompositeLikelihood.cxx:113-127 with getFree *)
Definition fetchFreeValues (k : composite) : outcome (list R) :=
  l <- getFreeParams k ;; Ok (map p_val l).

(** CompositeLikelihood.cxx:217-244. *)
Fixpoint count_loop (norm : string) (first : bool) (l : list (comp * string)) : outcome nat :=
  match l with
  | [] => Ok 0
  | cn :: r =>
      s <- common cn ;;
      np <- norm_par s ;;
      rest <- count_loop norm false r ;;
      Ok (length (other_free cn) + (if first then length (shape_free norm s) else 0)
          + (if p_free np then 1 else 0) + rest)
  end.

Definition getNumFreeParams (k : composite) : outcome nat := count_loop (k_norm k) true (k_comps k).

(** optimizers::Function::setFreeParamValues with the values read through the iterator
    (CompositeLikelihood.cxx:144-150): reading past the end of the vector is undefined. *)
Fixpoint set_free (l : list par) (vals : list R) : outcome (list par * list R) :=
  match l with
  | [] => Ok ([], vals)
  | p :: r =>
      if p_free p then
        match vals with
        | [] => UB
        | v :: vs => rv <- set_free r vs ;; Ok (mk_par (p_name p) v true :: fst rv, snd rv)
        end
      else rv <- set_free r vals ;; Ok (p :: fst rv, snd rv)
  end.

(** CompositeLikelihood.cxx:140-152, one component. *)
Fixpoint set_others (name : string) (l : list (string * spectrum)) (vals : list R)
  : outcome (list (string * spectrum) * list R) :=
  match l with
  | [] => Ok ([], vals)
  | (n, s) :: r =>
      if String.eqb n name then rv <- set_others name r vals ;; Ok ((n, s) :: fst rv, snd rv)
      else
        pv <- set_free (sp_pars s) vals ;;
        rv <- set_others name r (snd pv) ;;
        Ok ((n, mk_spec (fst pv) (sp_norm s) (sp_kind s)) :: fst rv, snd rv)
  end.

(** CompositeLikelihood.cxx:138-153. *)
Fixpoint set_others_all (l : list (comp * string)) (vals : list R) : outcome (list (comp * string) * list R) :=
  match l with
  | [] => Ok ([], vals)
  | (c, name) :: r =>
      sv <- set_others name (c_srcs c) vals ;;
      rv <- set_others_all r (snd sv) ;;
      Ok ((with_srcs c (fst sv), name) :: fst rv, snd rv)
  end.

(** CompositeLikelihood.cxx:162-172: the shape values of the first component, paired with their names.
    Setting them in the first component here is repeated by the loop that follows. *)
Fixpoint read_shape (names : list string) (vals : list R) : outcome (list (string * R) * list R) :=
  match names with
  | [] => Ok ([], vals)
  | n :: r =>
      match vals with
      | [] => UB
      | v :: vs => rv <- read_shape r vs ;; Ok ((n, v) :: fst rv, snd rv)
      end
  end.

Fixpoint set_shape (nv : list (string * R)) (s : spectrum) : outcome spectrum :=
  match nv with
  | [] => Ok s
  | (n, v) :: r => s' <- set_sp n v s ;; set_shape r s'
  end.

(** CompositeLikelihood.cxx:178-192. *)
Fixpoint set_common (norm : string) (nv : list (string * R)) (l : list (comp * string)) (vals : list R)
  : outcome (list (comp * string)) :=
  match l with
  | [] => Ok []
  | (c, name) :: r =>
      s <- common (c, name) ;;
      s1 <- set_shape nv s ;;
      np <- norm_par s1 ;;
      sv <- (if p_free np then
               match vals with
               | [] => UB
               | v :: vs => s2 <- set_sp norm v s1 ;; Ok (s2, vs)
               end
             else Ok (s1, vals)) ;;
      rest <- set_common norm nv r (snd sv) ;;
      Ok ((with_srcs c (put_src name (fst sv) (c_srcs c)), name) :: rest)
  end.

(** CompositeLikelihood.cxx:197-215: every parameter not called like the normalisation, then the last one
    seen that is (a default-made parameter when there is none). *)
Definition syncParams (k : composite) : composite :=
  let all := concat (map (fun cn => all_pars (c_srcs (fst cn))) (k_comps k)) in
  let saved := fold_left (fun s p => if String.eqb (p_name p) (k_norm k) then p else s) all (mk_par "" 0%R true) in
  mk_composite (k_comps k) (k_norm k) (k_kind k)
    (filter (fun p => negb (String.eqb (p_name p) (k_norm k))) all ++ [saved]).

(** CompositeLikelihood.cxx:129-195.  The components' own caches are not told: syncParams of a component only
    rebuilds its parameter list (BinnedLikelihood.cxx:374-376). *)
Definition setFreeParamValues (vals : list R) (k : composite) : outcome composite :=
  match k_comps k with
  | [] => Throw
  | cn :: _ =>
      ov <- set_others_all (k_comps k) vals ;;
      s <- common cn ;;
      nv <- read_shape (map p_name (shape_free (k_norm k) s)) (snd ov) ;;
      l <- set_common (k_norm k) (fst nv) (fst ov) (snd nv) ;;
      Ok (syncParams (with_comps k l))
  end.

(** LogLike::getFreeDerivs of one component: the model is recomputed when it is not current
    (BinnedLikelihood.cxx:213-216), otherwise used as it is. *)
Definition comp_derivs (c : comp) : comp * list R :=
  let v := all_vals c in
  let m := if c_cached c then match c_at c with Some m => m | None => v end else v in
  ((if c_cached c then with_at c (Some m) else c),
   map snd (filter (fun pd => p_free (fst pd)) (combine (all_pars (c_srcs c)) (c_grad c m v)))).

(** CompositeLikelihood.cxx:268-283: for each free parameter of a component, is it of the common source, and
    its name. *)
Definition flags (cn : comp * string) : list (bool * string) :=
  concat (map (fun s => map (fun p => (String.eqb (fst s) (snd cn), p_name p)) (free_pars (snd s)))
              (c_srcs (fst cn))).

(** CompositeLikelihood.cxx:298-309, one free derivative. *)
Definition deriv_step (norm : string) (npars : nat) (st : list R * list R * list R * nat)
    (fd : (bool * string) * R) : outcome (list R * list R * list R * nat) :=
  match st, fd with
  | (derivs, shape, norms, ipar), ((isc, name), d) =>
      if negb isc then Ok (derivs ++ [d], shape, norms, ipar)
      else if String.eqb name norm then Ok (derivs, shape, norms ++ [d], ipar)
      else if Nat.eqb npars 0 then UB
      else
        x <- vec_at shape (ipar mod npars) ;;
        shape' <- vec_set shape (ipar mod npars) (x + d)%R ;;
        Ok (derivs, shape', norms, S ipar)
  end.

(** CompositeLikelihood.cxx:246-319.  *m_components.begin() of an empty composite is undefined. *)
Definition getFreeDerivs (k : composite) : composite * outcome (list R) :=
  let l' := map (fun cn => (fst (comp_derivs (fst cn)), snd cn)) (k_comps k) in
  let fd := concat (map (fun cn => snd (comp_derivs (fst cn))) (k_comps k)) in
  let fl := concat (map flags (k_comps k)) in
  (with_comps k l',
   match k_comps k with
   | [] => UB
   | cn :: _ =>
       s <- common cn ;;
       let npars := length (shape_free (k_norm k) s) in
       if Nat.ltb (length fl) (length fd) then Throw else
       r <- mfold (deriv_step (k_norm k) npars) (combine fl fd) ([], repeat 0%R npars, [], 0) ;;
       match r with (derivs, shape, norms, _) => Ok (derivs ++ shape ++ norms) end
   end).
