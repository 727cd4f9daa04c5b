(** The recursive filters.  The vector kernels are a line by line transcription of the straight-line
    code (one [let] per __hv_*_f call); exact arithmetic: the lane type is any commutative ring.
    __hv_fma_f (HvMath.h:738-761) is then multiply and add. *)
From Verif Require Export Simd Del1Model.

(** HvSignalRPole.h:65-100 (AVX branch): filter state. *)
Record rpole8 V := rpole8_mk { r8_fxiLN : V; r8_kjkpV : V; r8_dkIWc : V; r8_bVeoW : V; r8_PulZn : V; r8_yTFig : V; r8_Is9Qf : V; r8_LIyNt : V; r8_VqpU3 : V; r8_ZVYeg : V; r8_IVAZh : V; r8_F8WrY : V; r8_rkFMy : V; r8_BeqSK : V; r8_ym : V }.
Arguments rpole8_mk {V}.
Arguments r8_fxiLN {V}.
Arguments r8_kjkpV {V}.
Arguments r8_dkIWc {V}.
Arguments r8_bVeoW {V}.
Arguments r8_PulZn {V}.
Arguments r8_yTFig {V}.
Arguments r8_Is9Qf {V}.
Arguments r8_LIyNt {V}.
Arguments r8_VqpU3 {V}.
Arguments r8_ZVYeg {V}.
Arguments r8_IVAZh {V}.
Arguments r8_F8WrY {V}.
Arguments r8_rkFMy {V}.
Arguments r8_BeqSK {V}.
Arguments r8_ym {V}.

(** HvSignalRPole.h:65-100 (AVX branch) *)
Definition rpole8_f {V} (vadd vsub vmul : V -> V -> V) (del1 : V -> V -> V * V) (o : rpole8 V) (bIn0 bIn1 : V) : rpole8 V * V :=
  let vfma a b c := vadd (vmul a b) c in
  let (r8_fxiLN', a) := del1 (o.(r8_fxiLN)) bIn1 in
  let b := vmul bIn1 a in
  let (r8_kjkpV', a) := del1 (o.(r8_kjkpV)) a in
  let c := vmul b a in
  let (r8_dkIWc', a) := del1 (o.(r8_dkIWc)) a in
  let d := vmul c a in
  let (r8_bVeoW', a) := del1 (o.(r8_bVeoW)) a in
  let e := vmul d a in
  let (r8_PulZn', a) := del1 (o.(r8_PulZn)) a in
  let f := vmul e a in
  let (r8_yTFig', a) := del1 (o.(r8_yTFig)) a in
  let g := vmul f a in
  let (r8_Is9Qf', a) := del1 (o.(r8_Is9Qf)) a in
  let a := vmul g a in
  let (r8_LIyNt', i) := del1 (o.(r8_LIyNt)) bIn0 in
  let (r8_VqpU3', j) := del1 (o.(r8_VqpU3)) i in
  let (r8_ZVYeg', k) := del1 (o.(r8_ZVYeg)) j in
  let (r8_IVAZh', l) := del1 (o.(r8_IVAZh)) k in
  let (r8_F8WrY', m) := del1 (o.(r8_F8WrY)) l in
  let (r8_rkFMy', n) := del1 (o.(r8_rkFMy)) m in
  let i := vmul i bIn1 in
  let i := vsub bIn0 i in
  let i := vfma j b i in
  let c := vmul k c in
  let c := vsub i c in
  let c := vfma l d c in
  let e := vmul m e in
  let e := vsub c e in
  let e := vfma n f e in
  let (r8_BeqSK', n) := del1 (o.(r8_BeqSK)) n in
  let g := vmul n g in
  let g := vsub e g in
  let g := vfma a (o.(r8_ym)) g in
  let r8_ym' := g in
  let bOut := g in
  (rpole8_mk r8_fxiLN' r8_kjkpV' r8_dkIWc' r8_bVeoW' r8_PulZn' r8_yTFig' r8_Is9Qf' r8_LIyNt' r8_VqpU3' r8_ZVYeg' r8_IVAZh' r8_F8WrY' r8_rkFMy' r8_BeqSK' r8_ym', bOut).

(** HvSignalRPole.c: sR/CPole_init: everything zero. *)
Definition rpole8_init {V} (z : V) : rpole8 V := rpole8_mk z z z z z z z z z z z z z z z.

(** HvSignalRPole.h:102-119 (SSE and NEON branch): filter state. *)
Record rpole4 V := rpole4_mk { r4_i8Twk : V; r4_KYibU : V; r4_spa5V : V; r4_3HXdb : V; r4_Aj1oK : V; r4_jNX1g : V; r4_ym : V }.
Arguments rpole4_mk {V}.
Arguments r4_i8Twk {V}.
Arguments r4_KYibU {V}.
Arguments r4_spa5V {V}.
Arguments r4_3HXdb {V}.
Arguments r4_Aj1oK {V}.
Arguments r4_jNX1g {V}.
Arguments r4_ym {V}.

(** HvSignalRPole.h:102-119 (SSE and NEON branch) *)
Definition rpole4_f {V} (vadd vsub vmul : V -> V -> V) (del1 : V -> V -> V * V) (o : rpole4 V) (bIn0 bIn1 : V) : rpole4 V * V :=
  let vfma a b c := vadd (vmul a b) c in
  let (r4_i8Twk', a) := del1 (o.(r4_i8Twk)) bIn1 in
  let b := vmul bIn1 a in
  let (r4_KYibU', a) := del1 (o.(r4_KYibU)) a in
  let c := vmul b a in
  let (r4_spa5V', a) := del1 (o.(r4_spa5V)) a in
  let a := vmul c a in
  let (r4_3HXdb', e) := del1 (o.(r4_3HXdb)) bIn0 in
  let (r4_Aj1oK', f) := del1 (o.(r4_Aj1oK)) e in
  let e := vmul e bIn1 in
  let e := vsub bIn0 e in
  let e := vfma f b e in
  let (r4_jNX1g', f) := del1 (o.(r4_jNX1g)) f in
  let c := vmul f c in
  let c := vsub e c in
  let c := vfma a (o.(r4_ym)) c in
  let r4_ym' := c in
  let bOut := c in
  (rpole4_mk r4_i8Twk' r4_KYibU' r4_spa5V' r4_3HXdb' r4_Aj1oK' r4_jNX1g' r4_ym', bOut).

(** HvSignalRPole.c: sR/CPole_init: everything zero. *)
Definition rpole4_init {V} (z : V) : rpole4 V := rpole4_mk z z z z z z z.

(** HvSignalCPole.h:101-226 (AVX branch); [bOut1]: what the second output buffer held before: filter state. *)
Record cpole8 V := cpole8_mk { c8_8kZ3w : V; c8_sy3YC : V; c8_GjjjE : V; c8_52HYk : V; c8_lXpu3 : V; c8_orza7 : V; c8_K7tpr : V; c8_yfNee : V; c8_hl63z : V; c8_etJkN : V; c8_BW4zg : V; c8_0z8gy : V; c8_0F5sm : V; c8_i4rAW : V; c8_ux1Jv : V; c8_FVaak : V; c8_oEc0p : V; c8_1AVVz : V; c8_qp6ty : V; c8_bkttO : V; c8_60VsH : V; c8_TbY4f : V; c8_bNHHm : V; c8_mijYH : V; c8_anxSw : V; c8_YiP2h : V; c8_anyeH : V; c8_Vtq0Y : V; c8_ymr : V; c8_ymi : V }.
Arguments cpole8_mk {V}.
Arguments c8_8kZ3w {V}.
Arguments c8_sy3YC {V}.
Arguments c8_GjjjE {V}.
Arguments c8_52HYk {V}.
Arguments c8_lXpu3 {V}.
Arguments c8_orza7 {V}.
Arguments c8_K7tpr {V}.
Arguments c8_yfNee {V}.
Arguments c8_hl63z {V}.
Arguments c8_etJkN {V}.
Arguments c8_BW4zg {V}.
Arguments c8_0z8gy {V}.
Arguments c8_0F5sm {V}.
Arguments c8_i4rAW {V}.
Arguments c8_ux1Jv {V}.
Arguments c8_FVaak {V}.
Arguments c8_oEc0p {V}.
Arguments c8_1AVVz {V}.
Arguments c8_qp6ty {V}.
Arguments c8_bkttO {V}.
Arguments c8_60VsH {V}.
Arguments c8_TbY4f {V}.
Arguments c8_bNHHm {V}.
Arguments c8_mijYH {V}.
Arguments c8_anxSw {V}.
Arguments c8_YiP2h {V}.
Arguments c8_anyeH {V}.
Arguments c8_Vtq0Y {V}.
Arguments c8_ymr {V}.
Arguments c8_ymi {V}.

(** HvSignalCPole.h:101-226 (AVX branch); [bOut1]: what the second output buffer held before *)
Definition cpole8_f {V} (vadd vsub vmul : V -> V -> V) (del1 : V -> V -> V * V) (o : cpole8 V) (bIn0 bIn1 bIn2 bIn3 bOut1 : V) : cpole8 V * (V * V) :=
  let vfma a b c := vadd (vmul a b) c in
  let (c8_8kZ3w', Bf0) := del1 (o.(c8_8kZ3w)) bIn0 in
  let (c8_sy3YC', Bf1) := del1 (o.(c8_sy3YC)) bIn1 in
  let Bf2 := vmul Bf1 bIn2 in
  let Bf2 := vfma Bf0 bIn3 Bf2 in
  let Bf3 := vmul Bf0 bIn2 in
  let Bf4 := vmul Bf1 bIn3 in
  let Bf4 := vsub Bf3 Bf4 in
  let Bf2 := vsub bIn1 Bf2 in
  let (c8_GjjjE', Bf0) := del1 (o.(c8_GjjjE)) Bf0 in
  let (c8_52HYk', Bf1) := del1 (o.(c8_52HYk)) Bf1 in
  let (c8_lXpu3', Bf3) := del1 (o.(c8_lXpu3)) bIn2 in
  let (c8_orza7', Bf5) := del1 (o.(c8_orza7)) bIn3 in
  let Bf6 := vmul bIn2 Bf3 in
  let Bf7 := vmul bIn3 Bf5 in
  let Bf7 := vsub Bf6 Bf7 in
  let Bf6 := vmul bIn3 Bf3 in
  let Bf6 := vfma bIn2 Bf5 Bf6 in
  let Bf8 := vmul Bf0 Bf6 in
  let Bf8 := vfma Bf1 Bf7 Bf8 in
  let Bf9 := vmul Bf0 Bf7 in
  let Bf10 := vmul Bf1 Bf6 in
  let Bf10 := vsub Bf9 Bf10 in
  let Bf8 := vadd Bf2 Bf8 in
  let (c8_K7tpr', Bf0) := del1 (o.(c8_K7tpr)) Bf0 in
  let (c8_yfNee', Bf1) := del1 (o.(c8_yfNee)) Bf1 in
  let (c8_hl63z', Bf3) := del1 (o.(c8_hl63z)) Bf3 in
  let (c8_etJkN', Bf5) := del1 (o.(c8_etJkN)) Bf5 in
  let Bf2 := vmul Bf7 Bf3 in
  let Bf9 := vmul Bf6 Bf5 in
  let Bf9 := vsub Bf2 Bf9 in
  let Bf7 := vmul Bf7 Bf5 in
  let Bf7 := vfma Bf6 Bf3 Bf7 in
  let Bf6 := vmul Bf1 Bf9 in
  let Bf6 := vfma Bf0 Bf7 Bf6 in
  let Bf2 := vmul Bf0 Bf9 in
  let Bf11 := vmul Bf1 Bf7 in
  let Bf11 := vsub Bf2 Bf11 in
  let Bf6 := vsub Bf8 Bf6 in
  let (c8_BW4zg', Bf0) := del1 (o.(c8_BW4zg)) Bf0 in
  let (c8_0z8gy', Bf1) := del1 (o.(c8_0z8gy)) Bf1 in
  let (c8_0F5sm', Bf3) := del1 (o.(c8_0F5sm)) Bf3 in
  let (c8_i4rAW', Bf5) := del1 (o.(c8_i4rAW)) Bf5 in
  let Bf8 := vmul Bf7 Bf3 in
  let Bf8 := vfma Bf9 Bf5 Bf8 in
  let Bf9 := vmul Bf9 Bf3 in
  let Bf7 := vmul Bf7 Bf5 in
  let Bf7 := vsub Bf9 Bf7 in
  let Bf9 := vmul Bf0 Bf7 in
  let Bf2 := vmul Bf1 Bf8 in
  let Bf2 := vsub Bf9 Bf2 in
  let Bf9 := vmul Bf0 Bf8 in
  let Bf9 := vfma Bf1 Bf7 Bf9 in
  let Bf9 := vadd Bf6 Bf9 in
  let (c8_ux1Jv', Bf0) := del1 (o.(c8_ux1Jv)) Bf0 in
  let (c8_FVaak', Bf1) := del1 (o.(c8_FVaak)) Bf1 in
  let (c8_oEc0p', Bf3) := del1 (o.(c8_oEc0p)) Bf3 in
  let (c8_1AVVz', Bf5) := del1 (o.(c8_1AVVz)) Bf5 in
  let Bf6 := vmul Bf8 Bf3 in
  let Bf6 := vfma Bf7 Bf5 Bf6 in
  let Bf7 := vmul Bf7 Bf3 in
  let Bf8 := vmul Bf8 Bf5 in
  let Bf8 := vsub Bf7 Bf8 in
  let Bf7 := vmul Bf0 Bf8 in
  let Bf12 := vmul Bf1 Bf6 in
  let Bf12 := vsub Bf7 Bf12 in
  let Bf7 := vmul Bf1 Bf8 in
  let Bf7 := vfma Bf0 Bf6 Bf7 in
  let Bf7 := vsub Bf9 Bf7 in
  let (c8_qp6ty', Bf0) := del1 (o.(c8_qp6ty)) Bf0 in
  let (c8_bkttO', Bf1) := del1 (o.(c8_bkttO)) Bf1 in
  let (c8_60VsH', Bf3) := del1 (o.(c8_60VsH)) Bf3 in
  let (c8_TbY4f', Bf5) := del1 (o.(c8_TbY4f)) Bf5 in
  let Bf9 := vmul Bf6 Bf3 in
  let Bf9 := vfma Bf8 Bf5 Bf9 in
  let Bf8 := vmul Bf8 Bf3 in
  let Bf6 := vmul Bf6 Bf5 in
  let Bf6 := vsub Bf8 Bf6 in
  let Bf8 := vmul Bf0 Bf9 in
  let Bf8 := vfma Bf1 Bf6 Bf8 in
  let Bf13 := vmul Bf0 Bf6 in
  let Bf14 := vmul Bf1 Bf9 in
  let Bf14 := vsub Bf13 Bf14 in
  let Bf8 := vadd Bf7 Bf8 in
  let (c8_bNHHm', Bf0) := del1 (o.(c8_bNHHm)) Bf0 in
  let (c8_mijYH', Bf1) := del1 (o.(c8_mijYH)) Bf1 in
  let (c8_anxSw', Bf3) := del1 (o.(c8_anxSw)) Bf3 in
  let (c8_YiP2h', Bf5) := del1 (o.(c8_YiP2h)) Bf5 in
  let Bf7 := vmul Bf6 Bf5 in
  let Bf7 := vfma Bf9 Bf3 Bf7 in
  let Bf6 := vmul Bf6 Bf3 in
  let Bf9 := vmul Bf9 Bf5 in
  let Bf9 := vsub Bf6 Bf9 in
  let Bf6 := vmul Bf0 Bf9 in
  let Bf13 := vmul Bf1 Bf7 in
  let Bf13 := vsub Bf6 Bf13 in
  let Bf0 := vmul Bf0 Bf7 in
  let Bf0 := vfma Bf1 Bf9 Bf0 in
  let Bf0 := vsub Bf8 Bf0 in
  let (c8_anyeH', Bf3) := del1 (o.(c8_anyeH)) Bf3 in
  let (c8_Vtq0Y', Bf5) := del1 (o.(c8_Vtq0Y)) Bf5 in
  let Bf8 := vmul Bf9 Bf3 in
  let Bf1 := vmul Bf7 Bf5 in
  let Bf1 := vsub Bf8 Bf1 in
  let Bf5 := vmul Bf9 Bf5 in
  let Bf5 := vfma Bf7 Bf3 Bf5 in
  let Bf3 := o.(c8_ymr) in
  let Bf4 := o.(c8_ymi) in
  let Bf9 := vmul Bf1 Bf3 in
  let Bf8 := vmul Bf5 Bf7 in
  let Bf8 := vsub Bf9 Bf8 in
  let Bf7 := vmul Bf1 Bf7 in
  let Bf7 := vfma Bf5 Bf3 Bf7 in
  let Bf7 := vadd Bf0 Bf7 in
  let c8_ymi' := Bf7 in
  let Bf4 := vsub bIn0 Bf4 in
  let Bf10 := vadd Bf4 Bf10 in
  let Bf11 := vsub Bf10 Bf11 in
  let Bf2 := vadd Bf11 Bf2 in
  let Bf12 := vsub Bf2 Bf12 in
  let Bf14 := vadd Bf12 Bf14 in
  let Bf13 := vsub Bf14 Bf13 in
  let Bf8 := vadd Bf13 Bf8 in
  let bOut0 := Bf8 in
  let bOut0 := Bf7 in
  let c8_ymr' := Bf8 in
  (cpole8_mk c8_8kZ3w' c8_sy3YC' c8_GjjjE' c8_52HYk' c8_lXpu3' c8_orza7' c8_K7tpr' c8_yfNee' c8_hl63z' c8_etJkN' c8_BW4zg' c8_0z8gy' c8_0F5sm' c8_i4rAW' c8_ux1Jv' c8_FVaak' c8_oEc0p' c8_1AVVz' c8_qp6ty' c8_bkttO' c8_60VsH' c8_TbY4f' c8_bNHHm' c8_mijYH' c8_anxSw' c8_YiP2h' c8_anyeH' c8_Vtq0Y' c8_ymr' c8_ymi', (bOut0, bOut1)).

(** HvSignalCPole.c: sR/CPole_init: everything zero. *)
Definition cpole8_init {V} (z : V) : cpole8 V := cpole8_mk z z z z z z z z z z z z z z z z z z z z z z z z z z z z z z.

(** HvSignalCPole.h:228-289 (SSE and NEON branch): filter state. *)
Record cpole4 V := cpole4_mk { c4_j0EQa : V; c4_4REN6 : V; c4_5z88r : V; c4_CxDdp : V; c4_8zCWF : V; c4_1A4op : V; c4_ldSdM : V; c4_sOZ64 : V; c4_mpbqn : V; c4_sBC7F : V; c4_bZG8k : V; c4_Wtjof : V; c4_ymr : V; c4_ymi : V }.
Arguments cpole4_mk {V}.
Arguments c4_j0EQa {V}.
Arguments c4_4REN6 {V}.
Arguments c4_5z88r {V}.
Arguments c4_CxDdp {V}.
Arguments c4_8zCWF {V}.
Arguments c4_1A4op {V}.
Arguments c4_ldSdM {V}.
Arguments c4_sOZ64 {V}.
Arguments c4_mpbqn {V}.
Arguments c4_sBC7F {V}.
Arguments c4_bZG8k {V}.
Arguments c4_Wtjof {V}.
Arguments c4_ymr {V}.
Arguments c4_ymi {V}.

(** HvSignalCPole.h:228-289 (SSE and NEON branch) *)
Definition cpole4_f {V} (vadd vsub vmul : V -> V -> V) (del1 : V -> V -> V * V) (o : cpole4 V) (bIn0 bIn1 bIn2 bIn3 : V) : cpole4 V * (V * V) :=
  let vfma a b c := vadd (vmul a b) c in
  let (c4_j0EQa', Bf0) := del1 (o.(c4_j0EQa)) bIn0 in
  let (c4_4REN6', Bf1) := del1 (o.(c4_4REN6)) bIn1 in
  let Bf2 := vmul Bf0 bIn3 in
  let Bf2 := vfma Bf1 bIn2 Bf2 in
  let Bf3 := vmul Bf0 bIn2 in
  let Bf4 := vmul Bf1 bIn3 in
  let Bf4 := vsub Bf3 Bf4 in
  let Bf2 := vsub bIn1 Bf2 in
  let (c4_5z88r', Bf0) := del1 (o.(c4_5z88r)) Bf0 in
  let (c4_CxDdp', Bf1) := del1 (o.(c4_CxDdp)) Bf1 in
  let (c4_8zCWF', Bf3) := del1 (o.(c4_8zCWF)) bIn2 in
  let (c4_1A4op', Bf5) := del1 (o.(c4_1A4op)) bIn3 in
  let Bf6 := vmul bIn3 Bf3 in
  let Bf6 := vfma bIn2 Bf5 Bf6 in
  let Bf7 := vmul bIn2 Bf3 in
  let Bf8 := vmul bIn3 Bf5 in
  let Bf8 := vsub Bf7 Bf8 in
  let Bf7 := vmul Bf0 Bf8 in
  let Bf9 := vmul Bf1 Bf6 in
  let Bf9 := vsub Bf7 Bf9 in
  let Bf7 := vmul Bf0 Bf6 in
  let Bf7 := vfma Bf1 Bf8 Bf7 in
  let Bf7 := vadd Bf2 Bf7 in
  let (c4_ldSdM', Bf0) := del1 (o.(c4_ldSdM)) Bf0 in
  let (c4_sOZ64', Bf1) := del1 (o.(c4_sOZ64)) Bf1 in
  let (c4_mpbqn', Bf3) := del1 (o.(c4_mpbqn)) Bf3 in
  let (c4_sBC7F', Bf5) := del1 (o.(c4_sBC7F)) Bf5 in
  let Bf2 := vmul Bf6 Bf3 in
  let Bf2 := vfma Bf8 Bf5 Bf2 in
  let Bf8 := vmul Bf8 Bf3 in
  let Bf6 := vmul Bf6 Bf5 in
  let Bf6 := vsub Bf8 Bf6 in
  let Bf8 := vmul Bf0 Bf6 in
  let Bf10 := vmul Bf1 Bf2 in
  let Bf10 := vsub Bf8 Bf10 in
  let Bf1 := vmul Bf1 Bf6 in
  let Bf1 := vfma Bf0 Bf2 Bf1 in
  let Bf1 := vsub Bf7 Bf1 in
  let (c4_bZG8k', Bf3) := del1 (o.(c4_bZG8k)) Bf3 in
  let (c4_Wtjof', Bf5) := del1 (o.(c4_Wtjof)) Bf5 in
  let Bf7 := vmul Bf6 Bf3 in
  let Bf0 := vmul Bf2 Bf5 in
  let Bf0 := vsub Bf7 Bf0 in
  let Bf3 := vmul Bf2 Bf3 in
  let Bf3 := vfma Bf6 Bf5 Bf3 in
  let Bf5 := o.(c4_ymr) in
  let Bf6 := o.(c4_ymi) in
  let Bf2 := vmul Bf3 Bf5 in
  let Bf2 := vfma Bf0 Bf6 Bf2 in
  let Bf5 := vmul Bf0 Bf5 in
  let Bf6 := vmul Bf3 Bf6 in
  let Bf6 := vsub Bf5 Bf6 in
  let Bf2 := vadd Bf1 Bf2 in
  let bOut1 := Bf2 in
  let Bf4 := vsub bIn0 Bf4 in
  let Bf9 := vadd Bf4 Bf9 in
  let Bf10 := vsub Bf9 Bf10 in
  let Bf6 := vadd Bf10 Bf6 in
  let bOut0 := Bf6 in
  let c4_ymr' := Bf6 in
  let c4_ymi' := Bf2 in
  (cpole4_mk c4_j0EQa' c4_4REN6' c4_5z88r' c4_CxDdp' c4_8zCWF' c4_1A4op' c4_ldSdM' c4_sOZ64' c4_mpbqn' c4_sBC7F' c4_bZG8k' c4_Wtjof' c4_ymr' c4_ymi', (bOut0, bOut1)).

(** HvSignalCPole.c: sR/CPole_init: everything zero. *)
Definition cpole4_init {V} (z : V) : cpole4 V := cpole4_mk z z z z z z z z z z z z z z.

(** Scalar branches, HvSignalRPole.h (#else) and HvSignalCPole.h (#else). *)
Section Scalar.
Context {R : Type} (radd rsub rmul : R -> R -> R).
Definition rpole1_f (ym bIn0 bIn1 : R) : R * R := let bOut := rsub bIn0 (rmul bIn1 ym) in (bOut, bOut).
Definition cpole1_f (o : R * R) (bIn0 bIn1 bIn2 bIn3 : R) : (R * R) * (R * R) :=
  let (ymr, ymi) := o in
  let bOut0 := rsub bIn0 (rsub (rmul bIn2 ymr) (rmul bIn3 ymi)) in
  let bOut1 := rsub bIn1 (radd (rmul bIn2 ymi) (rmul bIn3 ymr)) in
  ((bOut0, bOut1), (bOut0, bOut1)).
End Scalar.

(** Blocks one after the other. *)
Fixpoint rpole_run {O V} (step : O -> V -> V -> O * V) (o : O) (l : list (V * V)) : list V :=
  match l with [] => [] | (x, a) :: l' => let (o', y) := step o x a in y :: rpole_run step o' l' end.
Fixpoint cpole_run {O V} (step : O -> V -> V -> V -> V -> O * (V * V)) (o : O) (l : list (V * V * V * V)) : list (V * V) :=
  match l with [] => [] | (x, x', a, a') :: l' => let (o', y) := step o x x' a a' in y :: cpole_run step o' l' end.
