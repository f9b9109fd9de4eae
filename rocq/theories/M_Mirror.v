(** Model of the quantizers and activations placed into the traced hardware model.

    Source: /repo/src/hgq/_dais_tracer/layers/_base.py 20-34 (mirror_quantizer; the copy
    /repo/src/hgq/_alkaid_keras_plugin/_base.py 15-28 is the same computation),
    /repo/src/hgq/_dais_tracer/layers/activation.py 16-44 (ReplayReLU) and
    /repo/src/hgq/quantizer/quantizer.py 49-60.

    A traced variable is modelled by the value it takes in one execution of the hardware.  The
    primitives of the tracing package (external: da4ml.trace.ops.quantize, relu, msb_mux) are modelled
    from their documented meaning on integer codes: [quantize] rounds to a code of step 2^-f and then
    keeps the low bits (two's complement), or saturates; a format without bits gives 0. *)
From Verif Require Import Num M_Fixed M_State M_Wrapper M_Mapper.

(** low [b + k] bits of the code, read as two's complement number when signed *)
Definition hw_wrap (k : bool) (b n : Z) : Z :=
  let m := Z.land n (Z.ones (b + kz k)) in
  if k && Z.testbit m b then (m - 2 ^ (b + 1))%Z else m.
Definition hw_sat (lo hi n : Z) : Z := if (n <? lo)%Z then lo else if (hi <? n)%Z then hi else n.
(** quantize(v, k, i, f, overflow_mode, round_mode) on one variable (external) *)
Definition hw_quantize (rm : rmode) (om : omode) (k : bool) (i f : Z) (x : Q) : Q :=
  let b := (i + f)%Z in
  if (b + kz k <=? 0)%Z then 0
  else
    let n := rnd_int rm (x * pow2 f) in
    let n' := match om with
              | WRAP => hw_wrap k b n
              | SAT => hw_sat (if k then - 2 ^ b else 0) (2 ^ b - 1) n
              | SAT_SYM => hw_sat (if k then 1 - 2 ^ b else 0) (2 ^ b - 1) n
              end in
    inject_Z n' * pow2 (- f).

(** numpy's astype(np.int8) *)
Definition to_int8 (z : Z) : Z := ((z + 128) mod 256 - 128)%Z.

(** mirror_quantizer, _dais_tracer/layers/_base.py 20-34: [k], [i], [f] is q_internal.kif; a sample [v] has no batch axis.
    (1.0 / q.scaler is exact here; in the code it is a float division.) *)
Definition mirror_quantizer (w : wrapper) (c : qconf) (k : tensor bool) (i f : tensor Z) (v : tensor Q) : option (tensor Q) :=
  let v := match w_scaler w with Some s => tmap (fun x => x * (1 / s)) v | None => v end in
  do kx <- broadcast_to k (1%nat :: shape v);
  do ix <- broadcast_to i (1%nat :: shape v);
  do fx <- broadcast_to f (1%nat :: shape v);
  let rq := mk_tensor (shape v) (fun j =>
    hw_quantize (c_rm c) (c_om c) (at_ kx (0%nat :: j)) (to_int8 (at_ ix (0%nat :: j))) (to_int8 (at_ fx (0%nat :: j))) (at_ v j)) in
  Some (match w_affine w with Some (a, b) => tmap (fun x => x * a + b) rq | None => rq end).

(** kif of a KIF quantizer (fixed_point_quantizer.py 447-449) and of a KBI quantizer (260-265) *)
Definition kif_widths (s : kif_tstate) : tensor bool * tensor Z * tensor Z :=
  (t_k s, tmap round_even (t_i s), tmap round_even (t_f s)).
Definition kbi_widths (s : kbi_tstate) : tensor bool * tensor Z * tensor Z :=
  (u_k s, tmap round_even (u_i s), tmap2 Z.sub (tmap round_even (u_b s)) (tmap round_even (u_i s))).
Definition mirror_with (w : wrapper) (c : qconf) (kif : tensor bool * tensor Z * tensor Z) (v : tensor Q) :=
  let '(k, i, f) := kif in mirror_quantizer w c k i f v.

(** Quantizer.call (quantizer.py 49-60) on a batch in inference; [call] is the internal quantizer *)
Definition quantizer_infer (w : wrapper) (call : tensor Q -> option (tensor Q)) (x : tensor Q) : option (tensor Q) :=
  let inputs := match w_scaler w with Some s => tmap (fun x => x / s) x | None => x end in
  do outputs <- call inputs;
  let outputs := match w_scaler w with Some s => tmap (fun y => y * s) outputs | None => outputs end in
  Some (match w_affine w with Some (a, b) => tmap (fun y => y * a + b) outputs | None => outputs end).
Definition kif_infer (c : qconf) (hom : list nat) (s : kif_tstate) (x : tensor Q) : option (tensor Q) :=
  do (_, y) <- kif_tcall c hom Infer s x; Some y.
Definition kbi_infer (c : qconf) (hom : list nat) (s : kbi_tstate) (x : tensor Q) : option (tensor Q) :=
  do (_, y) <- kbi_tcall c hom Infer s x; Some y.
(** sample [b] of a batch *)
Definition sample {A} (b : nat) (x : tensor A) : tensor A := mk_tensor (tl (shape x)) (fun j => at_ x (b :: j)).

(** ** Activations *)
Definition relu (x : Q) : Q := Qmax 0 x.
Definition qlt_b (x y : Q) : bool := negb (Qle_bool y x).
(** keras.ops.relu family, as called by keras.layers.ReLU (external, keras/src/activations/activations.py,
    ReLU.static_call), on one element: threshold, negative_slope, max_value *)
Definition keras_relu (th neg : Q) (maxv : option Q) (x : Q) : Q :=
  let negative_part := if Qeq_bool th 0 then relu (- x) else relu (- x + th) in
  let y := if Qeq_bool th 0 then relu x else x * (if qlt_b th x then 1 else 0) in
  let y := match maxv with Some m => clip 0 m y | None => y end in
  if Qeq_bool neg 0 then y else y - neg * negative_part.
(** keras.layers.PReLU: relu(x) - alpha * relu(-x); LeakyReLU: x, or slope * x when negative *)
Definition keras_prelu (alpha x : Q) : Q := relu x - alpha * relu (- x).

(** msb_mux(c, a, b): [a] when the top bit of the signed [c] is set (c < 0), else [b] *)
Definition msb_mux (c a b : Q) : Q := if qlt_b c 0 then a else b.
(** ReplayReLU.call, _dais_tracer/layers/activation.py 19-44, on one variable of value [x], lower end [low] and [f] fractional bits *)
Definition replay_relu (low : Q) (f : Z) (th neg : Q) (maxv : option Q) (x : Q) : Q :=
  if Qeq_bool th 0 && Qeq_bool neg 0 && match maxv with None => true | _ => false end then relu x      (* 30-31 *)
  else
    let pos_part := match maxv with None => x | Some m => Qmin x m end in                              (* 33-34 *)
    let shift := if Qeq_bool th 0 then 0 else th + pow2 (- f - 1) in                                   (* 36-39 *)
    let z_cond := x - shift in
    let neg_part := (x - th) * neg in                                                                  (* 41 *)
    if qlt_b (low - shift) 0 then msb_mux z_cond neg_part pos_part else pos_part.                      (* 42 *)
