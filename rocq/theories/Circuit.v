(** The operators written out as sequences of fw_uint operations, so that they can be run on each back end of fw_uint: machine
    words (FwWord.v), ac_int and ap_uint (Hls.v), or the width-unbounded integers of Fw.v. *)
From Coq Require Import ZArith Bool List.
From Verif Require Import Fw FwWord HlsInt Hls.
Open Scope Z_scope.

(** ** Operations *)
Inductive cmp := CEq | CNe | CLt | CLe | CGt | CGe.
(** One operation of fw_uint: widths first, then operands. OInt: fw_uint<W>(int) and cg<W>. OSlice: get_bits, get_bit. OCat:
    concat. OCast: checked_cast. OAddInt, OSubInt, OCmpInt: operator with an int. OBool: to_bool. OToInt: to_int. OOnesHi, OOnesLo:
    concat(og<P>(),x), concat(x,og<P>()), for a P which may be 0. *)
Inductive oper : Type :=
| OInt (W v : Z) | ONot (W a : Z) | OAdd (W a b : Z) | OSub (W a b : Z) | OAddInt (W a n : Z) | OSubInt (W a n : Z) | OMul (WA WB a b : Z)
| OAnd (W a b : Z) | OOr (W a b : Z) | OXor (W a b : Z) | OShr (W a d : Z) | OShl (W a d : Z)
| OSlice (W hi lo a : Z) | OCat (WA WB a b : Z) | OCast (WD WS a : Z) | OOnesHi (P W a : Z) | OOnesLo (P W a : Z)
| OCmp (c : cmp) (W a b : Z) | OCmpInt (c : cmp) (W a n : Z) | OBool (a : Z) | OToInt (W a : Z).
(** A sequence of operations, each using the results of those before; Fail is a failed assertion. *)
Inductive prog (A : Type) : Type := Ret (a : A) | Do (o : oper) (k : Z -> prog A) | Fail.
Arguments Ret {A}. Arguments Do {A}. Arguments Fail {A}.
Fixpoint pbind {A B : Type} (p : prog A) (f : A -> prog B) : prog B :=
  match p with Ret a => f a | Do o k => Do o (fun r => pbind (k r) f) | Fail => Fail end.
Notation "'opr' x <- o ; b" := (Do o (fun x => b)) (at level 200, x name, o at level 100, b at level 200, right associativity).
Notation "'prg' x <- p ; b" := (pbind p (fun x => b)) (at level 200, x name, p at level 100, b at level 200, right associativity).
Definition passert (c : bool) : prog unit := if c then Ret tt else Fail.

(** Running a sequence, given what each operation does. *)
Fixpoint run {A : Type} (K : oper -> option Z) (p : prog A) : option A :=
  match p with Ret a => Some a | Do o k => match K o with Some r => run K (k r) | None => None end | Fail => None end.

(** ** Back ends *)
Definition fw_sem (o : oper) : option Z :=
  match o with
  | OInt W v => of_int W v | ONot W a => Some (fnot W a) | OAdd W a b => Some (fadd W a b) | OSub W a b => Some (fsub W a b)
  | OAddInt W a n => Some (fadd W a n) | OSubInt W a n => Some (fsub W a n) | OMul _ _ a b => Some (fmul a b)
  | OAnd _ a b => Some (fand a b) | OOr W a b => Some (for_ W a b) | OXor W a b => Some (fxor W a b)
  | OShr W a d => fshr W a d | OShl W a d => fshl W a d
  | OSlice W hi lo a => get_bits W hi lo a | OCat _ WB a b => Some (cat WB a b) | OCast WD WS a => checked_cast WD WS a
  | OOnesHi P W a => Some (opad_hi P W a) | OOnesLo P W a => Some (opad_lo P W a)
  | OCmp c _ a b | OCmpInt c _ a b =>
      Some (match c with CEq => feq a b | CNe => fne a b | CLt => flt a b | CLe => fle a b | CGt => fgt a b | CGe => fge a b end)
  | OBool a => Some (Z.b2z (to_bool a)) | OToInt _ a => to_int a
  end.
(** The width of the result, and the largest width involved. *)
Definition op_width (o : oper) : Z :=
  match o with
  | OInt W _ | ONot W _ | OAdd W _ _ | OSub W _ _ | OAddInt W _ _ | OSubInt W _ _ | OAnd W _ _ | OOr W _ _ | OXor W _ _ | OShr W _ _ | OShl W _ _ => W
  | OMul WA WB _ _ => WA + WB
  | OSlice _ hi lo _ => hi - lo + 1 | OCat WA WB _ _ => WA + WB | OCast WD _ _ => WD | OOnesHi P W _ | OOnesLo P W _ => P + W
  | OCmp _ _ _ _ | OCmpInt _ _ _ _ | OBool _ => 1 | OToInt W _ => W
  end.
Definition op_widest (o : oper) : Z :=
  match o with OSlice W _ _ _ => W | OCast _ W _ => W | OCmpInt _ W _ _ => W | _ => op_width o end.
Definition cmpf (c : cmp) (a b : Z) : bool :=
  match c with CEq => a =? b | CNe => negb (a =? b) | CLt => a <? b | CLe => a <=? b | CGt => b <? a | CGe => b <=? a end.
Definition bool_word (b : option bool) : option Z := option_map Z.b2z b.
(** Machine words, fw_uint_on_masked_uint.hpp. *)
Definition word_op (o : oper) : option Z :=
  match o with
  | OInt W v => m_of_int W v | ONot W a => m_not W a | OAdd W a b => m_add W a b | OSub W a b => m_sub W a b
  | OAddInt W a n => m_add_int W a n | OSubInt W a n => m_sub_int W a n | OMul WA WB a b => m_mul WA WB a b
  | OAnd W a b => m_and W a b | OOr W a b => m_or W a b | OXor W a b => m_xor W a b
  | OShr W a d => m_shr W a d | OShl W a d => m_shl W a d
  | OSlice W hi lo a => m_get_bits W hi lo a | OCat WA WB a b => m_concat WA WB a b | OCast WD WS a => m_checked_cast WD WS a
  | OOnesHi P W a => m_opad_hi P W a | OOnesLo P W a => m_opad_lo P W a
  | OCmp c _ a b => m_cmp (cmpf c) a b | OCmpInt c W a n => m_cmp_int W (cmpf c) a n
  | OBool a => bool_word (m_to_bool 1 a) | OToInt _ a => m_to_int a
  end.
(** No type wider than 128 bits compiles: 360. *)
Definition word_sem (o : oper) : option Z := if op_widest o <=? 128 then word_op o else None.
Definition h_cmp (c : cmp) (W a b : Z) : option Z :=
  match c with CEq => h_eq W a b | CNe => h_ne W a b | CLt => h_lt W a b | CLe => h_le W a b | CGt => h_gt W a b | CGe => h_ge W a b end.
Definition h_cmp_int (c : cmp) (W a n : Z) : option Z :=
  match c with CEq => h_eq_int W a n | CNe => h_ne_int W a n | CLt => h_lt_int W a n | CLe => h_le_int W a n | CGt => h_gt_int W a n | CGe => h_ge_int W a n end.
(** ap_uint, fw_uint_on_ap_uint.hpp. *)
Definition ap_sem (o : oper) : option Z :=
  match o with
  | OInt W v => h_of_int ap_overflow W v | ONot W a => ap_not W a | OAdd W a b => ap_add W a b | OSub W a b => ap_sub W a b
  | OAddInt W a n => ap_add_int W a n | OSubInt W a n => ap_sub_int W a n | OMul WA WB a b => ap_mul WA WB a b
  | OAnd W a b => ap_and W a b | OOr W a b => ap_or W a b | OXor W a b => ap_xor W a b
  | OShr W a d => ap_shr W a d | OShl W a d => ap_shl W a d
  | OSlice W hi lo a => ap_get_bits W hi lo a | OCat WA WB a b => ap_concat WA WB a b | OCast WD WS a => h_checked_cast WD WS a
  | OOnesHi P W a => k_opad_hi ap_backend P W a | OOnesLo P W a => k_opad_lo ap_backend P W a
  | OCmp c W a b => h_cmp c W a b | OCmpInt c W a n => h_cmp_int c W a n
  | OBool a => bool_word (h_to_bool 1 a) | OToInt W a => Some (ap_to_int W a)
  end.
(** ac_int, fw_uint_on_ac_uint.hpp. Its to_int casts the ac_int to int: [conv] says whether the library has that conversion
    (then it keeps the low 32 bits); if it does not, a function using to_int does not compile. *)
Definition ac_sem (conv : bool) (o : oper) : option Z :=
  match o with
  | OInt W v => h_of_int ac_overflow W v | ONot W a => ac_not W a | OAdd W a b => ac_add W a b | OSub W a b => ac_sub W a b
  | OAddInt W a n => ac_add_int W a n | OSubInt W a n => ac_sub_int W a n | OMul WA WB a b => ac_mul WA WB a b
  | OAnd W a b => ac_and W a b | OOr W a b => ac_or W a b | OXor W a b => ac_xor W a b
  | OShr W a d => ac_shr W a d | OShl W a d => ac_shl W a d
  | OSlice W hi lo a => ac_get_bits W hi lo a | OCat WA WB a b => ac_concat WA WB a b | OCast WD WS a => h_checked_cast WD WS a
  | OOnesHi P W a => k_opad_hi ac_backend P W a | OOnesLo P W a => k_opad_lo ac_backend P W a
  | OCmp c W a b => h_cmp c W a b | OCmpInt c W a n => h_cmp_int c W a n
  | OBool a => bool_word (h_to_bool 1 a) | OToInt W a => if conv then Some (low_bits 32 true a) else None
  end.
(** A back end, for circuits whose values have at most [w] bits: the machine words stop at 128. *)
Inductive back_end (w : Z) : (oper -> option Z) -> Prop :=
| on_words : w <= 128 -> back_end w word_sem | on_ap : back_end w ap_sem | on_ac : back_end w (ac_sem true).

(** ** The functions of fw_uint.hpp *)
(** zg, og: 245-260. zpad_hi, zpad_lo: 371-376, 383-388. *)
Definition p_zg (W : Z) : prog Z := opr z <- OInt W 0; Ret z.
Definition p_og (W : Z) : prog Z := opr z <- OInt W 0; opr o <- ONot W z; Ret o.
Definition p_zpad_hi (P W x : Z) : prog Z := opr z <- OInt P 0; opr r <- OCat P W z x; Ret r.
Definition p_zpad_lo (P W x : Z) : prog Z := opr z <- OInt P 0; opr r <- OCat W P x z; Ret r.
(** select(c,a,b): 430-438. *)
Definition p_select {A : Type} (c : Z) (a b : A) : prog A := opr t <- OBool c; Ret (select t a b).
(** add_with_cin, add_cin: 410-428. *)
Definition p_add_with_cin (W x y cin : Z) : prog Z := opr s <- OAdd W x y; prg c <- p_zpad_hi (W - 1) 1 cin; opr r <- OAdd W s c; Ret r.
Definition p_add_cin (W x cin : Z) : prog Z := prg c <- p_zpad_hi (W - 1) 1 cin; opr r <- OAdd W x c; Ret r.
(** x==n1 || x==n2 || ...: 238-243, comparisons with an int. *)
Definition p_one_of2 (W x n1 n2 : Z) : prog Z := opr a <- OCmpInt CEq W x n1; opr b <- OCmpInt CEq W x n2; opr r <- OOr 1 a b; Ret r.
Definition p_one_of3 (W x n1 n2 n3 : Z) : prog Z := prg ab <- p_one_of2 W x n1 n2; opr c <- OCmpInt CEq W x n3; opr r <- OOr 1 ab c; Ret r.
(** lut<WD,WA>(f) read at address a: 685-705. The entries are made when the table is built; only the one read is made here. *)
Definition p_lut (WD WA : Z) (f : Z -> Z) (a : Z) : prog Z := opr i <- OToInt WA a; opr v <- OInt WD (f i); Ret v.
