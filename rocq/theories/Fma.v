(** Model of fma (fp_flopoco_fma.hpp:18-65) and flopoco_fma (67-71). *)
From Coq Require Import ZArith.
From Verif Require Import Fw Mul Flopoco AddDual.
Open Scope Z_scope.

(** Widths of the exact product, lines 23 and 30, and of the sum, lines 33-34. *)
Definition fma_wEXY (wEX wEY : Z) : Z := (if wEY <? wEX then wEX else wEY) + 2.
Definition fma_wFXY (wFX wFY : Z) : Z := wFX + wFY + 2.
Definition fma_wEXYZ (wEX wEY wEZ : Z) : Z := if wEZ <? fma_wEXY wEX wEY then fma_wEXY wEX wEY else wEZ + 1.
Definition fma_wFXYZ (wFX wFY wFZ : Z) : Z := ctMax (fma_wFXY wFX wFY) wFZ.

(** Lines 18-65. *)
Definition fma (wER wFR wEX wFX wEY wFY wEZ wFZ x y z : Z) : option Z :=
  let wEXY := fma_wEXY wEX wEY in
  do xx <- convert wEXY wFX wEX wFX x;
  do yy <- convert wEXY wFY wEY wFY y;
  let wFXY := fma_wFXY wFX wFY in
  do xy <- mul wEXY wFXY wEXY wFX wFY xx yy;
  let wEXYZ := fma_wEXYZ wEX wEY wEZ in
  let wFXYZ := fma_wFXYZ wFX wFY wFZ in
  do xyxy <- convert wEXYZ wFXYZ wEXY wFXY xy;
  do zz <- convert wEXYZ wFXYZ wEZ wFZ z;
  do xyz <- add_fast wEXYZ wFXYZ wEXYZ wFXYZ wEXYZ wFXYZ xyxy zz;
  convert wER wFR wEXYZ wFXYZ xyz.

(** Lines 67-71. *)
Definition flopoco_fma := fma.
