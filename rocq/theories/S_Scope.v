(** Specification vocabulary for scopes. *)
From Verif Require Import Num M_Scope.

(** the two sets of defaults answer every lookup alike *)
Definition same_defaults (e e' : env) : Prop :=
  (forall qt pl k, confs e qt pl k = confs e' qt pl k) /\ (forall pl, dqt e pl = dqt e' pl).

(** no scope object is entered again while it is active ([active] = objects entered around [p]),
    and override() is not used *)
Fixpoint well_nested (active : list nat) (p : prog) : Prop :=
  match p with
  | PSkip | PRaise => True
  | POverride _ => False
  | PSeq p q => well_nested active p /\ well_nested active q
  | PCatch p => well_nested active p
  | PWith n p => ~ In n active /\ well_nested (n :: active) p
  end.
(** scope object [n] is neither entered nor overridden in [p] *)
Fixpoint not_mentioned (n : nat) (p : prog) : Prop :=
  match p with
  | PSkip | PRaise => True
  | POverride m => n <> m
  | PSeq p q => not_mentioned n p /\ not_mentioned n q
  | PCatch p => not_mentioned n p
  | PWith m p => n <> m /\ not_mentioned n p
  end.

(** no object is active *)
Definition all_idle (h : heap) : Prop := forall n, (forall qt pl, ob_tmp (h n) qt pl = None) /\ ob_orig (h n) = None.

(** the scope was created for this quantizer type and this place *)
Definition covers (s : scope) (qt pl : string) : bool :=
  existsb (fun q => existsb (fun p => String.eqb q qt && String.eqb p pl) (sc_pl s)) (sc_qt s).
(** the value a reader expects inside nested scopes, outermost first: the innermost scope that
    affects the configuration and gives the key wins; keys unknown to the configuration are ignored *)
Fixpoint expected (ss : list scope) (qt pl k : string) (old : option value) : option value :=
  match ss with
  | [] => old
  | s :: ss' =>
      expected ss' qt pl k
        (match old with
         | None => None
         | Some v => Some (if covers s qt pl then match get k (sc_kw s) with Some v' => v' | None => v end else v)
         end)
  end.
(** entering the scopes in order *)
Fixpoint enter_all (ss : list scope) (e : env) : env :=
  match ss with [] => e | s :: ss' => enter_all ss' (snd (enter s fresh_obj e)) end.

Definition distinct_keys (kw : list (string * value)) : Prop := NoDup (map fst kw).

(** whether an exception propagates depends on the body only (exit itself never raises) *)
Fixpoint raises (p : prog) : bool :=
  match p with
  | PSkip | POverride _ => false
  | PRaise => true
  | PSeq p q => raises p || raises q
  | PCatch _ => false
  | PWith _ p => raises p
  end.
