(** Model of the [Quantizer] wrapper: scaler, noise factor, affine map.
    Source: /repo/src/hgq/quantizer/quantizer.py 49-60; checks at config.py 474-485. *)
From Verif Require Import Num M_Fixed.

(** scaler and affine scale are non-zero, the noise factor is in [0,1] (asserted at construction) *)
Record wrapper := mk_wrapper { w_scaler : option Q; w_affine : option (Q * Q); w_noise : option Q }.
Definition wrapper_ok (w : wrapper) : Prop :=
  (forall s, w_scaler w = Some s -> ~ s == 0) /\
  (forall a b, w_affine w = Some (a, b) -> ~ a == 0) /\
  (forall n, w_noise w = Some n -> 0 <= n <= 1).

(** Quantizer.call on one element; [q] is what the internal quantizer does to an element in this
    call, [training] the truth value of the argument (False while tracing). *)
Definition wrapper_call (w : wrapper) (q : Q -> Q) (training : bool) (x : Q) : Q :=
  let inputs := match w_scaler w with Some s => x / s | None => x end in
  let outputs := q inputs in
  let outputs := match w_scaler w with Some s => outputs * s | None => outputs end in
  let outputs := match w_noise w with
                 | Some n => if training then inputs + n * (outputs - inputs) else outputs
                 | None => outputs end in
  match w_affine w with Some (a, b) => outputs * a + b | None => outputs end.
