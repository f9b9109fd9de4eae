(** Model of QEinsum.

    Source: /repo/src/hgq/layers/ops/einsum.py 22-69.  The equation is given split at "->" and "," and stripped (29-30); a term is a
    list of symbols, "..." being one symbol of length 3.  The operands are the inputs after the input quantizers (56-57).
    The value of an einsum is that of keras.ops.einsum (S_Einsum.is_einsum). *)
From Verif Require Import Num M_State M_Mapper S_Mapper M_Contr M_Ebops M_Ops S_Ops S_Einsum.
From Coq Require Import Permutation.

(** len(inp_idx) *)
Definition strlen (t : term) : Z := fold_right Z.add 0%Z (map (fun s => match s with Let _ => 1 | Ell => 3 end)%Z t).
(** the 52 letters, einsum.py 35 *)
Definition alphabet : list nat := seq 0 52.
(** inp_idx.replace('...', rep), einsum.py 50-51 *)
Definition replace (rep : list nat) (t : term) : term := flat_map (fun s => match s with Let c => [Let c] | Ell => map Let rep end) t.
(** the loop, einsum.py 36-43; None: AssertionError.  [wild] is wildcard_ndim, [avail] available_idxs *)
Fixpoint scan (wild : option Z) (avail : list nat) (ts : list term) (ndims : list nat) : option (option Z * list nat) :=
  match ts, ndims with
  | t :: ts', n :: ndims' =>
    if negb (strlen t =? Z.of_nat n)%Z then
      if existsb is_ell t then
        let w := (Z.of_nat n - (strlen t - 3))%Z in
        let wild' := match wild with None => w | Some w0 => w0 end in
        if match wild with None => (0 <=? w)%Z | Some _ => true end then
          if (wild' =? w)%Z then scan (Some wild') (filter (fun c => negb (memb c (letters t))) avail) ts' ndims'
          else None
        else None
      else None
    else scan wild avail ts' ndims'
  | _, _ => Some (wild, avail)
  end.
Fixpoint insert (a : nat) (l : list nat) : list nat := match l with [] => [a] | b :: l' => if (a <=? b)%nat then a :: l else b :: insert a l' end.
(** rep_indices.sort(), einsum.py 47 *)
Fixpoint isort (l : list nat) : list nat := match l with [] => [] | a :: l' => insert a (isort l') end.
(** build, einsum.py 27-54.  [order] is the iteration order of a Python set, list(available_idxs) at 46: it depends on the hash seed of
    the process *)
Definition set_order (order : list nat -> list nat) : Prop := forall l, Permutation (order l) l.
Definition build (order : list nat -> list nat) (q : equation) (ndims : list nat) : option equation :=
  if (length ndims =? length (e_ins q))%nat then                                                  (* 32 *)
    match scan None alphabet (e_ins q) ndims with
    | Some (Some w, avail) =>
      let rep := isort (firstn (Z.to_nat w) (order avail)) in
      Some (mk_eq (map (replace rep) (e_ins q)) (replace rep (e_out q)))
    | Some (None, _) => Some q
    | None => None
    end
  else None.
Definition ranks (xs : list (tensor Q)) : list nat := map (fun x => length (shape x)) xs.
(** call, einsum.py 55-58 *)
Definition layer_call (sum_ell : bool) (order : list nat -> list nat) (q : equation) (xs : list (tensor Q)) (y : tensor Q) : Prop :=
  exists q', build order q (ranks xs) = Some q' /\ is_einsum sum_ell q' xs y.
(** _compute_ebops, einsum.py 52, 60-63: the same operands, nothing in the output; the operands are the bit-widths *)
Definition ebops_equation (q : equation) : equation := mk_eq (e_ins q) [].
Definition layer_ebops (sum_ell : bool) (order : list nat -> list nat) (q : equation) (bits : list (tensor Q)) (v : Q) : Prop :=
  exists q' y, build order q (ranks bits) = Some q' /\ is_einsum sum_ell (ebops_equation q') bits y /\ v = at_ y [].
(** get_config, einsum.py 65-69: self.equation, which build has overwritten (53) *)
Definition saved_equation (order : list nat -> list nat) (q : equation) (ndims : option (list nat)) : option equation :=
  match ndims with Some n => build order q n | None => Some q end.
(** ReplayEinsum, /repo/src/hgq/_dais_tracer/layers/ops.py 201-229, for a QEinsum: two samples, each given a batch axis of size 1, which is
    taken off the result; op.equation is the built equation.  [xs] are the traced inputs after their quantizers *)
Definition replay_einsum (sum_ell : bool) (q' : equation) (xs : list (tensor Q)) (z : tensor Q) : Prop :=
  length xs = 2%nat /\ exists y, is_einsum sum_ell q' (map newaxis xs) y /\ first y = Some z.
