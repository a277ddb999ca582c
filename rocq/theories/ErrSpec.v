(** What an error norm is: quadrature of the squared k-th derivatives of (exact - discrete). *)
From Coq Require Import ZArith List Bool Reals.
From Verif Require Import Prelude Box GridSpec ElemSpec.
Import ListNotations.
Open Scope Z_scope.

Section ErrSpec.
  Variables N nen nel : Z -> Z.
  Variable first : triple -> Z -> Z.
  Variable npts : triple -> Z.
  Variable JW : triple -> Z -> R.
  Variable n : Z.                                  (* number of k-th partial derivatives, dim^k *)
  Variable D : triple -> Z -> triple -> Z -> R.    (* j-th one of basis function a of element e at point q *)
  Variable E : triple -> Z -> Z -> Z -> R.         (* of component i of the exact solution *)

  (** Of component i of the discrete field with nodal values x. *)
  Definition discrete (x : nodal) (e : triple) (q i j : Z) : R :=
    rsum (fun a => D e q a j * x (elem_node N first e a) i)%R (box zero3 nen).
  Definition sq_error (x : nodal) (i : Z) : R :=
    rsum (fun e => rsum (fun q => rsum (fun j => (E e q i j - discrete x e q i j) ^ 2)%R (zseq 0 n) * JW e q)%R
      (zseq 0 (npts e))) (box zero3 nel).
End ErrSpec.
