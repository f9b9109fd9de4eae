(** Model of the hardware replay of convolutions and poolings.

    Source: /repo/src/hgq/_dais_tracer/layers/conv.py 15-89 (symbolic_extract_patches), 109-146 (ReplayQConv), /repo/src/hgq/_dais_tracer/layers/pool.py 43-109 (ReplayPool).

    channels_last; samples have no batch axis, so an image has shape spatial ++ [ch].  The code reshapes
    1- and 2-dimensional images to 3 spatial axes (63-88) with leading axes of size, kernel and stride 1; the
    model is written for any number of spatial axes directly. *)
From Verif Require Import Num M_Fixed M_State M_Mapper M_Contr M_Ebops.

(** row-major positions: numpy ravel / reshape *)
Fixpoint flat (sh : list nat) (idx : index) : nat :=
  match sh, idx with
  | _ :: sh', i :: idx' => (i * nprod sh' + flat sh' idx')%nat
  | _, _ => 0%nat
  end.
Fixpoint unflat (sh : list nat) (p : nat) : index :=
  match sh with
  | [] => []
  | _ :: sh' => (p / nprod sh')%nat :: unflat sh' (p mod nprod sh')%nat
  end.

(** an integer rounded to binary32 (external): 24 significant bits, ties to even *)
Definition f32_int (z : Z) : Z :=
  if (Z.abs z <=? 2 ^ 24)%Z then z
  else let u := (2 ^ (Z.log2 (Z.abs z) - 23))%Z in (round_even (inject_Z z / inject_Z u) * u)%Z.

(** extract_patches(images, size, strides, dilation, padding) (external, Keras): entry [q] of the patch at
    output position [o]; patch entries are ordered by kernel tap, then channel; zero in the padding *)
Definition extract {A} (zero : A) (pad : padding) (cs : list cdim) (ch : nat) (img : nat -> A) (o : index) (q : nat) : A :=
  match c_positions pad cs o (unflat (map c_k cs) (q / ch)) with
  | Some p => img (flat (map c_in cs ++ [ch]) (p ++ [(q mod ch)%nat]))
  | None => zero
  end.
(** symbolic_extract_patches_3d, conv.py 15-46: image entries are replaced by -position-1 in float32, the patches
    of that are extracted, and the result is decoded to the symbolic entry, 0 to the padding *)
Definition sym_extract {A} (pad_value : A) (pad : padding) (cs : list cdim) (ch : nat) (img : nat -> A) (o : index) (q : nat) : A :=
  let img_tensor := fun j => f32_int (- f32_int (Z.of_nat j) - 1) in               (* 24-25 *)
  let v := extract 0%Z pad cs ch img_tensor o q in                                  (* 26-33 *)
  if (v =? 0)%Z then pad_value else img (Z.to_nat (- v - 1)).                       (* 34-44 *)

(** ReplayQConv.call, conv.py 112-146, at output position [o] and channel [co]: [img] and [kern] are the raveled image
    and quantized kernel (shape ksize ++ [cin/groups; cout]), [bias] the quantized bias *)
Definition replay_conv (pad : padding) (cs : list cdim) (cin groups cout : nat) (img kern bias : nat -> Q) (o : index) (co : nat) : Q :=
  let cout_g := (cout / groups)%nat in
  let g := (co / cout_g)%nat in let o' := (co mod cout_g)%nat in                    (* 141: reshape(..., -1) *)
  let n := (nprod (map c_k cs) * cin / groups)%nat in
  let x := fun i g => sym_extract 0 pad cs cin img o (i * groups + g)%nat in        (* 137: reshape(..., -1, groups) *)
  let k := fun i g o' => kern ((i * groups + g) * cout_g + o')%nat in               (* 138: reshape(-1, groups, _ch_out) *)
  qsum (map (fun i => x i g * k i g o') (seq 0 n)) + bias co.

(** the raveled arrays of an image of shape spatial ++ [ch] and of a kernel *)
Definition ravel_img (cs : list cdim) (ch : nat) (x : index -> Q) (j : nat) : Q := x (0%nat :: unflat (map c_in cs ++ [ch]) j).
Definition ravel_kernel (cs : list cdim) (cin_g cout : nat) (k : index -> Q) (j : nat) : Q := k (unflat (map c_k cs ++ [cin_g; cout]) j).

(** ** ReplayPool.call, pool.py 66-104, channel [c] of the window at [o]; all dilations are 1 *)
Definition pool_x {A} (zero : A) (pad : padding) (cs : list cdim) (ch : nat) (img : nat -> A) (o : index) (c : nat) : list A :=
  map (fun t => sym_extract zero pad cs ch img o (t * ch + c)%nat) (seq 0 (nprod (map c_k cs))).
Definition pool_mask (pad : padding) (cs : list cdim) (ch : nat) (o : index) (c : nat) : list Z :=
  match pad with
  | SAME => pool_x 0%Z SAME cs ch (fun _ => 1%Z) o c
  | VALID => map (fun _ => 1%Z) (seq 0 (nprod (map c_k cs)))
  end.
Definition np_max (l : list Q) : Q := match l with [] => 0 | x :: l' => fold_left Qmax l' x end.
Definition replay_max_pool (pad : padding) (cs : list cdim) (ch : nat) (img : nat -> Q) (o : index) (c : nat) : Q :=
  np_max (map (fun mx => if (fst mx =? 0)%Z then inject_Z (-2147483648) else snd mx) (combine (pool_mask pad cs ch o c) (pool_x 0 pad cs ch img o c))).
Definition zsum (l : list Z) : Z := fold_right Z.add 0%Z l.
Definition replay_avg_pool (pad : padding) (cs : list cdim) (ch : nat) (img : nat -> Q) (o : index) (c : nat) : Q :=
  qsum (pool_x 0 pad cs ch img o c) / inject_Z (zsum (pool_mask pad cs ch o c)).
(** the pooling layers (Keras, external): over the elements of the window inside the image *)
Definition window (pad : padding) (cs : list cdim) (x : index -> Q) (o : index) (c : nat) : list Q :=
  flat_map (fun t => match c_positions pad cs o t with Some p => [x (0%nat :: p ++ [c])] | None => [] end) (indices (map c_k cs)).
Definition max_pool (pad : padding) (cs : list cdim) (x : index -> Q) (o : index) (c : nat) : Q := np_max (window pad cs x o c).
Definition avg_pool (pad : padding) (cs : list cdim) (x : index -> Q) (o : index) (c : nat) : Q :=
  qsum (window pad cs x o c) / inject_Z (Z.of_nat (length (window pad cs x o c))).
(** global poolings, pool.py 56-65, are the reductions themselves *)
