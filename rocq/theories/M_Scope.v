(** Model of the configuration scopes.

    Source: /repo/src/hgq/quantizer/config.py 20-25, 75-222 (defaults), 437-508 (QuantizerConfig.__init__), 550-638 (QuantizerConfigScope) and
    /repo/src/hgq/config/layer.py (LayerConfigScope).

    Python dicts are modelled by their lookup function ([None] = key absent); iteration order
    is not modelled (no result depends on it, keys of one dict being distinct). *)
From Verif Require Import Num.
From Coq Require Export String.
Open Scope string_scope.

(** configuration values: None, a number, a tuple of axes, or anything else (an opaque tag) *)
Inductive value := VNone | VNum (q : Q) | VAxes (l : list Z) | VOther (s : string).
Definition dict := string -> option value.

Definition mem (s : string) (l : list string) : bool := existsb (String.eqb s) l.
Definition set (k : string) (v : value) (d : dict) : dict := fun k' => if String.eqb k k' then Some v else d k'.
Definition get (k : string) (kw : list (string * value)) : option value :=
  match find (fun p => String.eqb k (fst p)) kw with Some p => Some (snd p) | None => None end.
(** d.update(e) *)
Definition update (d e : dict) : dict := fun k => match e k with Some v => Some v | None => d k end.

(** the process-wide defaults: [default_configs] (its set of (q_type, place) keys never changes)
    and [default_q_type] *)
Record env := mk_env { confs : string -> string -> dict; dqt : string -> option string }.

(** ** construction of a scope: kwargs preprocessing, config.py 572-604 *)
Definition is_some_val (o : option value) : bool := match o with Some VNone | None => false | Some _ => true end.
Definition put (k : string) (v : value) (kw : list (string * value)) : list (string * value) :=
  (k, v) :: filter (fun p => negb (String.eqb k (fst p))) kw.
Definition fix_axes (kw : list (string * value)) : list (string * value) :=
  let kw1 := if is_some_val (get "homogeneous_axis" kw) then put "heterogeneous_axis" VNone kw else kw in
  if is_some_val (get "heterogeneous_axis" kw1) then put "homogeneous_axis" VNone kw1 else kw1.
Definition num_of (o : option value) : option Q := match o with Some (VNum q) => Some q | _ => None end.
(** the i0/f0/b0 completion; only numeric values are modelled (Initializer objects would make
    the subtraction raise) *)
Definition complete_ifb (kw : list (string * value)) : list (string * value) :=
  match num_of (get "i0" kw), num_of (get "f0" kw), num_of (get "b0" kw) with
  | None, Some f, Some b => put "i0" (VNum (b - f)) kw
  | Some i, None, Some b => put "f0" (VNum (b - i)) kw
  | Some i, Some f, None => put "b0" (VNum (i + f)) kw
  | _, _, _ => kw
  end.
(** [None]: the assertion at 584-586 fails *)
Definition scope_kwargs (kw : list (string * value)) : option (list (string * value)) :=
  if is_some_val (get "homogeneous_axis" kw) && is_some_val (get "heterogeneous_axis" kw) then None
  else Some (complete_ifb (fix_axes kw)).

(** ** QuantizerConfigScope objects *)
Record scope := mk_scope { sc_qt : list string; sc_pl : list string; sc_kw : list (string * value); sc_dqt : option string }.
Definition affects (s : scope) (qt pl : string) : bool := mem qt (sc_qt s) && mem pl (sc_pl s).
(** the mutable part of a scope object: [_tmp_storage], [original_default_q_type] *)
Record sobj := mk_sobj { ob_tmp : string -> string -> option dict; ob_orig : option (string -> option string) }.
Definition fresh_obj : sobj := mk_sobj (fun _ _ => None) None.

(** [for k, v in kwargs.items(): if k in default_conf: default_conf[k] = v] *)
Fixpoint apply_kw (kw : list (string * value)) (d : dict) : dict :=
  match kw with
  | [] => d
  | (k, v) :: kw' => apply_kw kw' (match d k with Some _ => set k v d | None => d end)
  end.

(** __enter__, config.py 613-623 *)
Definition enter (s : scope) (o : sobj) (e : env) : sobj * env :=
  (mk_sobj (fun qt pl => if affects s qt pl then Some (confs e qt pl) else ob_tmp o qt pl)
           (match sc_dqt s with Some _ => Some (dqt e) | None => ob_orig o end),
   mk_env (fun qt pl => if affects s qt pl then apply_kw (sc_kw s) (confs e qt pl) else confs e qt pl)
          (match sc_dqt s with Some q => fun pl => if mem pl (sc_pl s) then Some q else dqt e pl | None => dqt e end)).
(** __exit__, config.py 625-633 *)
Definition exit (o : sobj) (e : env) : sobj * env :=
  (fresh_obj,
   mk_env (fun qt pl => match ob_tmp o qt pl with Some d => update (confs e qt pl) d | None => confs e qt pl end)
          (match ob_orig o with Some d => d | None => dqt e end)).
(** override(), config.py 635-638 *)
Definition override (s : scope) (o : sobj) (e : env) : sobj * env :=
  let (o', e') := enter s o e in (mk_sobj (fun _ _ => None) (ob_orig o'), e').

(** ** QuantizerConfig construction, config.py 464-508: the effective parameters *)
(** [None]: an assertion or a ValueError *)
Definition quantizer_config (e : env) (q_type place : string) (kw : list (string * value)) : option dict :=
  let q_type' := if String.eqb q_type "default" then dqt e place else Some q_type in
  match q_type' with
  | None => None                                    (* default_q_type[place]: KeyError *)
  | Some qt =>
      if is_some_val (get "homogeneous_axis" kw) && is_some_val (get "heterogeneous_axis" kw) then None
      else
        let kw' := fix_axes kw in
        let d := confs e qt place in
        if forallb (fun p => match d (fst p) with Some _ => true | None => false end) kw'
        then Some (fun k => match get k kw' with Some v => Some v | None => d k end)
        else None
  end.

(** ** Programs using scopes.  Scope objects are numbered; [scopes n] is object n. *)
Inductive prog :=
| PSkip                         (* code that does not touch the defaults *)
| PRaise                        (* raise an exception *)
| PSeq (p q : prog)
| PCatch (p : prog)             (* try: p  except Exception: pass *)
| PWith (n : nat) (p : prog)    (* with scopes n: p *)
| POverride (n : nat).          (* (scopes n).override() *)

Definition heap := nat -> sobj.
Definition hset (n : nat) (o : sobj) (h : heap) : heap := fun m => if Nat.eqb n m then o else h m.

(** result: defaults, scope objects, and whether an exception is propagating *)
Fixpoint run (scopes : nat -> scope) (p : prog) (e : env) (h : heap) : env * heap * bool :=
  match p with
  | PSkip => (e, h, false)
  | PRaise => (e, h, true)
  | PSeq p q => let '(e1, h1, r) := run scopes p e h in if r then (e1, h1, true) else run scopes q e1 h1
  | PCatch p => let '(e1, h1, _) := run scopes p e h in (e1, h1, false)
  | PWith n p =>
      let (o, e0) := enter (scopes n) (h n) e in
      let '(e1, h1, r) := run scopes p e0 (hset n o h) in
      let (o2, e2) := exit (h1 n) e1 in (e2, hset n o2 h1, r)
  | POverride n => let (o, e1) := override (scopes n) (h n) e in (e1, hset n o h, false)
  end.

(** ** LayerConfigScope, config/layer.py 23-41 *)
Record lobj := mk_lobj { lo_tmp : option dict }.           (* self._tmp *)
Definition set_all (kw : list (string * value)) (d : dict) : dict := fold_left (fun d p => set (fst p) (snd p) d) kw d.
Definition l_enter (kw : list (string * value)) (g : dict) : lobj * dict := (mk_lobj (Some g), set_all kw g).
(** [del global_config[k]] raises KeyError when k is absent: [None] *)
Fixpoint del_all (kw : list (string * value)) (g : dict) : option dict :=
  match kw with
  | [] => Some g
  | (k, _) :: kw' => match g k with Some _ => del_all kw' (fun k' => if String.eqb k k' then None else g k') | None => None end
  end.
Definition l_exit (kw : list (string * value)) (o : lobj) (g : dict) : option dict :=
  match del_all kw g, lo_tmp o with
  | Some g', Some t => Some (update g' t)
  | _, _ => None
  end.
Definition lheap := nat -> lobj.
Definition lhset (n : nat) (o : lobj) (h : lheap) : lheap := fun m => if Nat.eqb n m then o else h m.
(** [POverride] does not exist for layer scopes and is a no-op here *)
Fixpoint lrun (over : nat -> list (string * value)) (p : prog) (g : dict) (h : lheap) : dict * lheap * bool :=
  match p with
  | PSkip | POverride _ => (g, h, false)
  | PRaise => (g, h, true)
  | PSeq p q => let '(g1, h1, r) := lrun over p g h in if r then (g1, h1, true) else lrun over q g1 h1
  | PCatch p => let '(g1, h1, _) := lrun over p g h in (g1, h1, false)
  | PWith n p =>
      let (o, g0) := l_enter (over n) g in
      let '(g1, h1, r) := lrun over p g0 (lhset n o h) in
      match l_exit (over n) (h1 n) g1 with
      | Some g2 => (g2, h1, r)
      | None => (g1, h1, true)
      end
  end.

(** ** the defaults of the (float, bias) configuration, config.py 167-184, 201-205 *)
Definition float_datalane_axes : list (string * value) := [("homogeneous_axis", VNone); ("heterogeneous_axis", VAxes [])].
Definition float_bias_axes : list (string * value) := put "homogeneous_axis" (VAxes []) float_datalane_axes.
