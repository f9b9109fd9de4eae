(** Model of how the keyword arguments of a layer travel through its constructors.

    Source: /repo/src/hgq/utils/misc.py 10-34 (gather_vars_to_kwargs) and the [__init__] methods listed in
    M_CtorTab.v.  Python's rules are modelled as far as they matter here: a call binds the declared parameters
    from the keywords or from the defaults, raises TypeError when a required one is missing, when the same
    name is given twice and when a name is unknown to a function without [**kwargs]; [super().__init__] calls
    the next class of the method resolution order (C3) that defines [__init__].

    Simplifications: values are opaque ([VObj]) or known by their source text ([VLit]); positional arguments
    are the same as keyword arguments with the parameter's name (see [by_position]); tests on numbers in the
    constructors (n_hl >= 0, units > 0, scale a power of two) are not modelled; dictionaries are association
    lists without repeated keys. *)
From Coq Require Import List Bool String Ascii Arith.
Import ListNotations.
Open Scope string_scope.
Local Open Scope list_scope.

Inductive val := VLit (source : string) | VObj (n : nat).
Definition val_eqb (a b : val) : bool :=
  match a, b with VLit s, VLit t => String.eqb s t | VObj n, VObj m => Nat.eqb n m | _, _ => false end.
Definition vnone : val := VLit "None".
Definition truthy (v : val) : bool := match v with VLit s => negb (existsb (String.eqb s) ["None"; "False"; "0"]) | VObj _ => true end.

Notation kwargs := (list (string * val)).
Fixpoint get {A} (k : string) (d : list (string * A)) : option A :=
  match d with [] => None | (k', v) :: d' => if String.eqb k k' then Some v else get k d' end.
Definition has {A} (k : string) (d : list (string * A)) : bool := match get k d with Some _ => true | None => false end.
Definition mem (k : string) (l : list string) : bool := existsb (String.eqb k) l.
(** d.update(e) *)
Definition update {A} (d e : list (string * A)) : list (string * A) := filter (fun p => negb (has (fst p) e)) d ++ e.

(** ** Patterns given to [re.compile]: alternatives of literals and [.+] *)
Inductive token := TLit (s : string) | TAnyPlus.
Fixpoint drop (n : nat) (s : string) : string := match n, s with O, _ => s | S n, String _ s => drop n s | S _, EmptyString => EmptyString end.
(** some proper suffix of [s] satisfies [f] *)
Fixpoint some_suffix (f : string -> bool) (s : string) : bool :=
  match s with EmptyString => false | String _ s' => f s' || some_suffix f s' end.
(** [re.match]: a beginning of the string, not the whole of it, has to match *)
Fixpoint matches (p : list token) (s : string) : bool :=
  match p with
  | [] => true
  | TLit a :: p => String.prefix a s && matches p (drop (String.length a) s)
  | TAnyPlus :: p => some_suffix (matches p) s
  end.
Definition skipped (alts : list (list token)) (s : string) : bool := existsb (fun p => matches p s) alts.

Definition rev_string (s : string) : string := string_of_list_ascii (rev (list_ascii_of_string s)).
(** k.startswith('__') and k.endswith('__'), misc.py 32 *)
Definition dunder (s : string) : bool := String.prefix "__" s && String.prefix "__" (rev_string s).

(** ** Constructors *)
(** arguments of a call: a local variable; a literal; [x if x is not None else d]; [kwargs.get(x, d)] *)
Inductive expr := EVar (x : string) | ELit (v : val) | EOr (x : string) (d : val) | EGet (x : string) (d : val).
Inductive check :=
| MustBe (x : string) (l : list val)        (* x in l, x == l[0], ... *)
| MustNotBe (x : string) (l : list val)
| Truthy (x : string) | Falsy (x : string)  (* assert x, assert not x *)
| NotBoth (x y : string).                   (* assert x is None or y is None *)

Record ctor := mk_ctor {
  c_name : string;
  c_params : list (string * option val);          (* parameters after self, with defaults *)
  c_star : bool;                                  (* has **kwargs *)
  c_checks : list check;
  c_gather : option (list (list token));          (* kwargs = gather_vars_to_kwargs(pattern) *)
  c_set : kwargs;                                 (* kwargs[n] = v *)
  c_pop : list string;                            (* kwargs.pop(n) *)
  c_pass : list (string * expr);                  (* arguments written out in super().__init__(...); **kwargs follows *)
  c_super : option string;                        (* super(C, self).__init__ instead of super().__init__ *)
  c_uses : list string }.                         (* parameters the body itself stores or tests *)

(** binding of the parameters; [None]: TypeError, missing argument *)
Fixpoint bind_params (ps : list (string * option val)) (kw : kwargs) : option kwargs :=
  match ps with
  | [] => Some []
  | (n, d) :: ps =>
      match (match get n kw with Some v => Some v | None => d end), bind_params ps kw with
      | Some v, Some env => Some ((n, v) :: env)
      | _, _ => None
      end
  end.
(** what is left for **kwargs *)
Definition leftover (ps : list (string * option val)) (kw : kwargs) : kwargs := filter (fun p => negb (has (fst p) ps)) kw.

Definition lookup (x : string) (env : kwargs) : val := match get x env with Some v => v | None => vnone end.
Definition check_ok (env : kwargs) (c : check) : bool :=
  match c with
  | MustBe x l => existsb (val_eqb (lookup x env)) l
  | MustNotBe x l => negb (existsb (val_eqb (lookup x env)) l)
  | Truthy x => truthy (lookup x env)
  | Falsy x => negb (truthy (lookup x env))
  | NotBoth x y => val_eqb (lookup x env) vnone || val_eqb (lookup y env) vnone
  end.
Definition eval (env rest : kwargs) (e : expr) : val :=
  match e with
  | EVar x => lookup x env
  | ELit v => v
  | EOr x d => if val_eqb (lookup x env) vnone then d else lookup x env
  | EGet x d => match get x rest with Some v => v | None => d end
  end.

(** misc.py 23-34.  The local variables are the parameters, [self] and the cell [__class__] of super();
    [rest] is the variable kwargs *)
Definition gather (alts : list (list token)) (env rest : kwargs) : kwargs :=
  let vars := ("self", VLit "self") :: ("__class__", VLit "__class__") :: env in
  filter (fun p => negb (dunder (fst p))) (update rest (filter (fun p => negb (skipped alts (fst p))) vars)).

(** the keywords of the call super().__init__(...); [None]: TypeError, multiple values for an argument *)
Definition next_kwargs (c : ctor) (env rest : kwargs) : option kwargs :=
  let kw := match c_gather c with Some alts => gather alts env rest | None => rest end in
  let kw := filter (fun p => negb (mem (fst p) (c_pop c))) (update kw (c_set c)) in
  if existsb (fun p => has (fst p) kw) (c_pass c) then None
  else Some (map (fun p => (fst p, eval env rest (snd p))) (c_pass c) ++ kw).

(** the constructors of the classes of a method resolution order, one after the other; the result is what
    each of them received.  [None]: an exception *)
Fixpoint run (chain : list ctor) (kw : kwargs) : option (list (string * kwargs)) :=
  match chain with
  | [] => match kw with [] => Some [] | _ => None end      (* object.__init__() takes no arguments *)
  | c :: chain =>
      if has "self" kw then None                           (* TypeError: multiple values for argument 'self' *)
      else match bind_params (c_params c) kw with
           | None => None
           | Some env =>
               let rest := leftover (c_params c) kw in
               if (match rest with [] => false | _ => negb (c_star c) end) || negb (forallb (check_ok env) (c_checks c)) then None
               else match next_kwargs c env rest with
                    | None => None
                    | Some kw' => match run chain kw' with Some o => Some ((c_name c, env) :: o) | None => None end
                    end
           end
  end.

(** ** Classes and the method resolution order *)
Record cls := mk_cls { k_name : string; k_bases : list string; k_init : option ctor }.
Fixpoint find_cls (l : list cls) (n : string) : option cls :=
  match l with [] => None | c :: l => if String.eqb (k_name c) n then Some c else find_cls l n end.
(** C3: the first head that is in no tail *)
Definition tails (ls : list (list string)) : list string := flat_map (@List.tl string) ls.
Fixpoint candidate (ls all : list (list string)) : option string :=
  match ls with
  | [] => None
  | [] :: ls => candidate ls all
  | (h :: _) :: ls => if mem h (tails all) then candidate ls all else Some h
  end.
Definition remove_head (h : string) (ls : list (list string)) : list (list string) :=
  filter (fun l => match l with [] => false | _ => true end)
         (map (fun l => match l with x :: l' => if String.eqb x h then l' else l | [] => [] end) ls).
Fixpoint merge (fuel : nat) (ls : list (list string)) : option (list string) :=
  match ls with
  | [] => Some []
  | _ => match fuel with
         | O => None
         | S fuel => match candidate ls ls with
                     | None => None
                     | Some h => match merge fuel (remove_head h ls) with Some l => Some (h :: l) | None => None end
                     end
         end
  end.
Fixpoint mro (fuel : nat) (table : list cls) (n : string) : option (list string) :=
  match fuel with
  | O => None
  | S fuel =>
      match find_cls table n with
      | None => None
      | Some c =>
          let supers := map (mro fuel table) (k_bases c) in
          if existsb (fun o => match o with None => true | Some _ => false end) supers then None
          else let lists := map (fun o => match o with Some l => l | None => [] end) supers in
               match merge 100 (filter (fun l => match l with [] => false | _ => true end) (lists ++ [k_bases c])) with
               | Some l => Some (n :: l)
               | None => None
               end
      end
  end.
Fixpoint after (n : string) (l : list string) : list string := match l with [] => [] | x :: l => if String.eqb x n then l else after n l end.
(** the constructors that run, in order: classes without __init__ are passed over, super(C, self) goes on after C *)
Fixpoint ctors (fuel : nat) (table : list cls) (l : list string) : list ctor :=
  match fuel, l with
  | O, _ => []
  | _, [] => []
  | S fuel, n :: l =>
      match find_cls table n with
      | Some (mk_cls _ _ (Some c)) => c :: ctors fuel table (match c_super c with Some s => after s l | None => l end)
      | _ => ctors fuel table l
      end
  end.
Definition chain_in (table : list cls) (n : string) : list ctor :=
  match mro 20 table n with Some l => ctors 40 table l | None => [] end.

(** positional arguments: the i-th is the i-th parameter of the constructor that is called *)
Definition by_position (c : ctor) (pos : list val) (kw : kwargs) : option kwargs :=
  if Nat.leb (List.length pos) (List.length (c_params c)) && forallb (fun p => negb (has (fst p) kw)) (combine (map fst (c_params c)) pos)
  then Some (combine (map fst (c_params c)) pos ++ kw) else None.
