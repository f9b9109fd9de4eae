(** Model of the bit-width mapper (which element uses which width) and of the quantizer calls
    on whole tensors.

    Source: /repo/src/hgq/quantizer/internal/base.py 51-68 (check_axis), 148-196
    (DefaultBitwidthMapper) and fixed_point_quantizer.py 142-150, 277-307, 401-429. *)
From Verif Require Import Num M_Fixed M_State.

Notation index := (list nat).
Record tensor (A : Type) := mk_tensor { shape : list nat; at_ : index -> A }.
Arguments mk_tensor {A}. Arguments shape {A}. Arguments at_ {A}.

(** every index of a tensor of that shape, in row-major order *)
Fixpoint indices (sh : list nat) : list index :=
  match sh with
  | [] => [[]]
  | d :: sh' => flat_map (fun i => map (cons i) (indices sh')) (seq 0 d)
  end.

Definition memb (a : nat) (l : list nat) : bool := existsb (Nat.eqb a) l.

(** check_axis, base.py 51-68; [None] = the assertion fails *)
Definition check_axis (axis : list Z) (ndim : nat) : option (list nat) :=
  let axis' := map (fun a => if (0 <=? a)%Z then a else (a + Z.of_nat ndim)%Z) axis in
  if forallb (fun a => (0 <=? a)%Z && (a <? Z.of_nat ndim)%Z) axis'
  then Some (map Z.to_nat axis') else None.

(** np.setdiff1d(np.arange(N), axes) *)
Definition setdiff (n : nat) (axes : list nat) : list nat :=
  filter (fun a => negb (memb a axes)) (seq 0 n).

(** the resolution of the two axis arguments: DefaultBitwidthMapper.__init__, base.py 152-161 (exactly one is given, otherwise
    the assertion fails) and inference_weight_shape 163-171.  Result: (heterogeneous, homogeneous). *)
Definition resolve_axes (het hom : option (list Z)) (n : nat) : option (list nat * list nat) :=
  match het, hom with
  | Some het, None => match check_axis het n with Some l => Some (l, setdiff n l) | None => None end
  | None, Some hom => match check_axis hom n with Some l => Some (setdiff n l, l) | None => None end
  | _, _ => None
  end.

(** inference_weight_shape, base.py 173-180: unknown sizes are [None] (e.g. the batch axis) *)
Fixpoint weight_shape_from (a : nat) (het : list nat) (sh : list (option nat)) : option (list nat) :=
  match sh with
  | [] => Some []
  | d :: sh' =>
      match weight_shape_from (S a) het sh' with
      | None => None
      | Some w => if memb a het then match d with Some d => Some (d :: w) | None => None end
                  else Some (1%nat :: w)
      end
  end.
Definition weight_shape (het : list nat) (sh : list (option nat)) : option (list nat) := weight_shape_from 0 het sh.

(** ops.broadcast_to for equal ranks (bw_to_x, base.py 182-183) *)
Fixpoint bcast_ok (w sh : list nat) : bool :=
  match w, sh with
  | [], [] => true
  | d :: w', e :: sh' => ((d =? 1)%nat || (d =? e)%nat) && bcast_ok w' sh'
  | _, _ => false
  end.
Fixpoint bcast_index (w : list nat) (idx : index) : index :=
  match w, idx with
  | d :: w', i :: idx' => (if (d =? 1)%nat then 0%nat else i) :: bcast_index w' idx'
  | _, _ => []
  end.
Definition broadcast_to {A} (t : tensor A) (sh : list nat) : option (tensor A) :=
  if bcast_ok (shape t) sh then Some (mk_tensor sh (fun idx => at_ t (bcast_index (shape t) idx))) else None.

(** reduction over the axes [hom] with keepdims=True: index [g] of the result collects the
    elements whose index, with the [hom] coordinates replaced by 0, is [g] *)
Fixpoint keep_from (a : nat) (hom : list nat) (idx : index) : index :=
  match idx with
  | [] => []
  | i :: idx' => (if memb a hom then 0%nat else i) :: keep_from (S a) hom idx'
  end.
Definition keep (hom : list nat) (idx : index) : index := keep_from 0 hom idx.
Fixpoint keep_shape_from (a : nat) (hom : list nat) (sh : list nat) : list nat :=
  match sh with
  | [] => []
  | d :: sh' => (if memb a hom then 1%nat else d) :: keep_shape_from (S a) hom sh'
  end.
Definition index_eqb (i j : index) : bool := if list_eq_dec Nat.eq_dec i j then true else false.
Definition collect {A} (hom : list nat) (t : tensor A) (g : index) : list A :=
  map (at_ t) (filter (fun idx => index_eqb (keep hom idx) g) (indices (shape t))).
Definition reduce_keep {A B} (f : list A -> B) (hom : list nat) (t : tensor A) : tensor B :=
  mk_tensor (keep_shape_from 0 hom (shape t)) (fun g => f (collect hom t g)).

(** x_to_bw_absmax 185-186, x_to_bw_sign 188-189 of base.py; the maximum of an empty slice raises *)
Definition x_to_bw_absmax (hom : list nat) (x : tensor Q) : option (tensor Q) :=
  let r := reduce_keep absmax hom x in
  if forallb (fun g => match at_ r g with Some _ => true | None => false end) (indices (shape r))
  then Some (mk_tensor (shape r) (fun g => match at_ r g with Some m => m | None => 0 end)) else None.
Definition x_to_bw_sign (hom : list nat) (x : tensor Q) : tensor bool := reduce_keep any_neg hom x.

(** elementwise operations; operands have the same shape (weights and reductions have the
    weight shape; inputs and broadcast widths have the input shape) *)
Definition tmap {A B} (f : A -> B) (t : tensor A) : tensor B := mk_tensor (shape t) (fun g => f (at_ t g)).
Definition tmap2 {A B C} (f : A -> B -> C) (t : tensor A) (u : tensor B) : tensor C :=
  mk_tensor (shape t) (fun g => f (at_ t g) (at_ u g)).

Definition bind {A B} (o : option A) (f : A -> option B) : option B := match o with Some a => f a | None => None end.
Notation "'do' x <- e ; f" := (bind e (fun x => f)) (at level 200, x pattern, right associativity).

(** the weights _k, _i, _f / _k, _b, _i of a built quantizer *)
Record kif_tstate := mk_kift { t_k : tensor bool; t_i : tensor Q; t_f : tensor Q }.
Record kbi_tstate := mk_kbit { u_k : tensor bool; u_b : tensor Q; u_i : tensor Q }.

(** FixedPointQuantizerBase.call, fixed_point_quantizer.py 142-150, on a tensor *)
Definition base_tcall (c : qconf) (training : bool) (k : tensor bool) (i f : tensor Z) (x : tensor Q) : option (tensor Q) :=
  do kx <- broadcast_to k (shape x);
  do ix <- broadcast_to i (shape x);
  do fx <- broadcast_to f (shape x);
  Some (mk_tensor (shape x) (fun j => base_call (c_rm c) (c_om c) training (at_ kx j) (at_ ix j) (at_ fx j) (at_ x j))).

Definition round_t (c : qconf) (x : tensor Q) (f : tensor Z) : tensor Q :=
  tmap2 (fun x f => round_f (c_rm c) f x) x f.

(** FixedPointQuantizerKIF.call, fixed_point_quantizer.py 401-429, on a tensor *)
Definition kif_tcall (c : qconf) (hom : list nat) (m : mode) (s : kif_tstate) (x : tensor Q) : option (kif_tstate * tensor Q) :=
  let sf := tmap round_even (t_f s) in
  let si := tmap round_even (t_i s) in
  if is_wrap (c_om c) && c_trainable c then
    do f <- broadcast_to sf (shape x);
    let rinputs := round_t c x f in
    match m with
    | Train =>
        do xr <- x_to_bw_absmax hom rinputs;
        let _new_i := tmap2 minimal_i_xf xr sf in
        let new_i := tmap2 (fun i n => decayed_max i (c_decay c) (inject_Z n)) (t_i s) _new_i in
        Some (mk_kift (t_k s) new_i (t_f s), rinputs)
    | Trace =>
        do xr <- x_to_bw_absmax hom rinputs;
        let _new_i := tmap (apply_cz (c_ic c)) (tmap2 minimal_i_xf xr sf) in
        let new_i := tmap2 Z.max si _new_i in
        let new_k := tmap2 orb (t_k s) (x_to_bw_sign hom rinputs) in
        Some (mk_kift new_k (tmap inject_Z new_i) (t_f s), rinputs)
    | Infer =>
        if c_weight c then Some (s, rinputs)
        else do y <- base_tcall c false (t_k s) si sf x; Some (s, y)
    end
  else do y <- base_tcall c (is_train m) (t_k s) si sf x; Some (s, y).

(** FixedPointQuantizerKBI.call, fixed_point_quantizer.py 277-307, on a tensor *)
Definition kbi_tcall (c : qconf) (hom : list nat) (m : mode) (s : kbi_tstate) (x : tensor Q) : option (kbi_tstate * tensor Q) :=
  let sb := tmap round_even (u_b s) in
  let si := tmap round_even (u_i s) in
  let sf := tmap2 Z.sub sb si in
  if is_wrap (c_om c) && c_trainable c then
    match m with
    | Train =>
        do xr <- x_to_bw_absmax hom x;
        let new_i := tmap2 (fun i n => decayed_max i (c_decay c) (inject_Z n)) (u_i s) (tmap2 minimal_i_xb xr sb) in
        let new_i := tmap (apply_c (c_ic c)) new_i in
        do f <- broadcast_to (tmap2 Z.sub sb (tmap round_even new_i)) (shape x);
        Some (mk_kbit (u_k s) (u_b s) new_i, round_t c x f)
    | Trace =>
        do xr <- x_to_bw_absmax hom x;
        let new_i := tmap (apply_cz (c_ic c)) (tmap2 Z.max si (tmap2 minimal_i_xb xr sb)) in
        do f <- broadcast_to (tmap2 Z.sub sb new_i) (shape x);
        let rinputs := round_t c x f in
        let new_k := tmap2 (fun n b => n && (0 <? b)%Z) (x_to_bw_sign hom rinputs) sb in
        Some (mk_kbit (tmap2 orb (u_k s) new_k) (u_b s) (tmap inject_Z new_i), rinputs)
    | Infer =>
        do f <- broadcast_to sf (shape x);
        if c_weight c && match c_rm c with RND => true | _ => false end then Some (s, round_t c x f)
        else do y <- base_tcall c false (u_k s) si sf x; Some (s, y)
    end
  else do y <- base_tcall c (is_train m) (u_k s) si sf x; Some (s, y).

(** a sequence of calls on whole tensors, and [trace_minmax]: minmax_trace.py 13-21, 67-80 *)
Fixpoint kif_trun (c : qconf) (hom : list nat) (s : kif_tstate) (h : list (mode * tensor Q)) : option (kif_tstate * list (tensor Q)) :=
  match h with
  | [] => Some (s, [])
  | (m, x) :: h' =>
      do (s', out) <- kif_tcall c hom m s x;
      do (s'', outs) <- kif_trun c hom s' h';
      Some (s'', out :: outs)
  end.
Definition kif_treset (c : qconf) (s : kif_tstate) : kif_tstate :=
  if is_wrap (c_om c) && c_trainable c
  then mk_kift (tmap (fun _ => false) (t_k s)) (tmap (fun _ => inject_Z (-1000000000)) (t_i s)) (t_f s) else s.
Definition kif_ttrace (c : qconf) (hom : list nat) (reset : bool) (s : kif_tstate) (batches : list (tensor Q)) :=
  kif_trun c hom (if reset then kif_treset c s else s) (map (fun b => (Trace, b)) batches).
Fixpoint kbi_trun (c : qconf) (hom : list nat) (s : kbi_tstate) (h : list (mode * tensor Q)) : option (kbi_tstate * list (tensor Q)) :=
  match h with
  | [] => Some (s, [])
  | (m, x) :: h' =>
      do (s', out) <- kbi_tcall c hom m s x;
      do (s'', outs) <- kbi_trun c hom s' h';
      Some (s'', out :: outs)
  end.
Definition kbi_treset (c : qconf) (s : kbi_tstate) : kbi_tstate :=
  if is_wrap (c_om c) && c_trainable c
  then mk_kbit (tmap (fun _ => false) (u_k s)) (u_b s) (tmap (fun _ => inject_Z (-1000000000)) (u_i s)) else s.
Definition kbi_ttrace (c : qconf) (hom : list nat) (reset : bool) (s : kbi_tstate) (batches : list (tensor Q)) :=
  kbi_trun c hom (if reset then kbi_treset c s else s) (map (fun b => (Trace, b)) batches).
