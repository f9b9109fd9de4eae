(** The widths that a built quantizer reports to the EBOPs figures.

    Source: /repo/src/hgq/quantizer/internal/fixed_point_quantizer.py 92-97 (bits), 245-254 (k, b, i of KBI), 431-445 (k, b, i, f of KIF),
    /repo/src/hgq/quantizer/quantizer.py 72-74, 86-88 (bits, bits_). *)
From Verif Require Import Num M_Fixed M_State M_Wrapper M_Mapper M_Contr M_Ebops M_Mirror M_Net.

(** Quantizer.bits before the broadcast, quantizer.py 72-74: KIF b = relu(i + f), fixed_point_quantizer.py 435-437; KBI b = round_conv(_b), 248-250 *)
Definition qbits_of (q : quant) : qbits :=
  match q_s q with
  | inl s => mk_qbits (c_om (q_c q)) (t_k s) (tmap2 kif_b (tmap round_even (t_i s)) (tmap round_even (t_f s)))
  | inr s => mk_qbits (c_om (q_c q)) (u_k s) (tmap round_even (u_b s))
  end.
