(** C111: products of matrices (DImageMatrix.hpp). *)
From Coq Require Import String Ascii.
From Verif Require Import Proofs.MatrixProofs Proofs.TransformProofs5.
Local Open Scope Z_scope.

(** The product, in the arithmetic of the pixel type, whatever the threads do; the only products that may overflow are
    those of 16-bit unsigned pixels. *)
Theorem C111_product_partial t junk sched sched' im1 im2 imOut :
  legal_sched sched -> legal_sched sched' -> composable im1 im2 -> wf_img imOut -> small (sz im2) ->
  typed_img t im1 -> typed_img t im2 ->
  (t = UINT16 -> forall u v, In u (pixs im1) -> In v (pixs im2) -> u * v <= 2 ^ 31 - 2 ^ 16) ->
  exists out, matMultiply t junk sched sched' im1 im2 imOut = Some (1, out) /\ product_of t im1 im2 out.
Proof. apply multiply_ok. Qed.
Print Assumptions C111_product_partial.

(** Matrices that cannot be multiplied leave the output unchanged. *)
Theorem C111_rejected t junk sched sched' im1 im2 imOut :
  (dd (sz im1) <> 1 \/ dd (sz im2) <> 1 -> matMultiply t junk sched sched' im1 im2 imOut = Some (-96, imOut)) /\
  (dd (sz im1) = 1 -> dd (sz im2) = 1 -> dw (sz im1) <> dh (sz im2) -> matMultiply t junk sched sched' im1 im2 imOut = Some (-100, imOut)).
Proof.
  unfold matMultiply, depth, width, height. split.
  - intros H. replace (negb (dd (sz im1) =? 1) || negb (dd (sz im2) =? 1)) with true by lia. reflexivity.
  - intros -> -> H. cbn [Z.eqb Pos.eqb negb orb]. replace (dw (sz im1) =? dh (sz im2)) with false by lia. reflexivity.
Qed.
Print Assumptions C111_rejected.

(** The product is determined by the inputs. *)
Theorem C111_unique t a b o o' : product_of t a b o -> product_of t a b o' -> o = o'.
Proof.
  intros (W & S & V) (W' & S' & V'). apply img_ext; try assumption; [congruence|]. intros x y z v Hv. pose proof (proj1 Hv) as I. rewrite S in I. unfold inside in I. cbn in I. assert (z = 0) by lia. subst z.
  rewrite (pixel_is_fun _ _ _ _ _ _ Hv (V x y ltac:(lia) ltac:(lia))). apply V'; lia.
Qed.
Print Assumptions C111_unique.

(** Associativity, although every product wraps around. *)
Theorem C111_associative t a b c ab bc l r :
  composable a b -> composable b c -> product_of t a b ab -> product_of t b c bc -> product_of t ab c l -> product_of t a bc r -> l = r.
Proof. apply product_assoc. Qed.
Print Assumptions C111_associative.

(** The identity matrix is neutral. *)
Theorem C111_identity t a i o : wf_img a -> dd (sz a) = 1 -> typed_img t a -> identity (dw (sz a)) i -> product_of t a i o -> o = a.
Proof. apply product_identity. Qed.
Print Assumptions C111_identity.

(** The transposed of a product is the product of the transposed matrices, in the other order. *)
Theorem C111_transposed t a b ab abT aT bT l :
  composable a b -> product_of t a b ab -> transposed "y"%char "x"%char "z"%char ab abT ->
  transposed "y"%char "x"%char "z"%char a aT -> transposed "y"%char "x"%char "z"%char b bT -> product_of t bT aT l -> l = abT.
Proof. apply product_transpose. Qed.
Print Assumptions C111_transposed.

(** 16-bit products overflow [int]. *)
Theorem C111_overflow_refuted :
  matMultiply UINT16 (fun _ => 0) (fun l => l) (fun l => l) (Img (Dims 1 1 1) [65535]) (Img (Dims 1 1 1) [65535]) (Img (Dims 1 1 1) [0]) = None.
Proof. reflexivity. Qed.
Print Assumptions C111_overflow_refuted.

(** With the first input as output, the result is not the product. *)
Theorem C111_inplace_refuted :
  exists im im2 out out', composable im im2 /\ typed_img UINT8 im /\ typed_img UINT8 im2 /\
    matMultiply UINT8 (fun _ => 0) (fun l => l) (fun l => l) im im2 im = Some (1, out) /\ product_of UINT8 im im2 out /\
    matMultiply_inplace UINT8 (fun _ => 0) im im2 = Some (1, out') /\ out' <> out.
Proof.
  exists (Img (Dims 2 2 1) [1; 2; 3; 4]), (Img (Dims 2 2 1) [5; 6; 7; 8]). eexists. eexists.
  assert (C : composable (Img (Dims 2 2 1) [1; 2; 3; 4]) (Img (Dims 2 2 1) [5; 6; 7; 8])) by (repeat split; cbn; lia).
  assert (T1 : typed_img UINT8 (Img (Dims 2 2 1) [1; 2; 3; 4])) by (repeat constructor; cbn; lia). assert (T2 : typed_img UINT8 (Img (Dims 2 2 1) [5; 6; 7; 8])) by (repeat constructor; cbn; lia).
  split; [exact C|]. split; [exact T1|]. split; [exact T2|]. split; [vm_compute; reflexivity|]. split; [|split; [vm_compute; reflexivity|discriminate]].
  destruct (multiply_ok UINT8 (fun _ => 0) (fun l => l) (fun l => l) (Img (Dims 2 2 1) [1; 2; 3; 4]) (Img (Dims 2 2 1) [5; 6; 7; 8]) (Img (Dims 2 2 1) [1; 2; 3; 4])) as (o & E & P); try assumption; try (intros l i; reflexivity); [split; [repeat split; cbn; lia|reflexivity]|repeat split; cbn; lia|discriminate|]. vm_compute in E. injection E as <-. exact P.
Qed.
Print Assumptions C111_inplace_refuted.

Definition mat_a : img := Img (Dims 3 2 1) [1; 2; 3; 4; 5; 6].
Definition mat_b : img := Img (Dims 1 3 1) [10; 20; 100].
Example C111_case : composable mat_a mat_b /\ typed_img UINT8 mat_a /\ typed_img UINT8 mat_b /\ small (sz mat_b) /\
  matMultiply UINT8 (fun _ => 77) (@rev _) (fun l => l ++ rev l)%list mat_a mat_b (Img (Dims 2 2 1) [0; 0; 0; 0]) = Some (1, Img (Dims 1 2 1) [94; 228]).
Proof. split; [repeat split; cbn; lia|]. split; [repeat constructor; cbn; lia|]. split; [repeat constructor; cbn; lia|]. split; [repeat split; cbn; lia|]. reflexivity. Qed.
Definition mat_i : img := Img (Dims 3 3 1) [1; 0; 0; 0; 1; 0; 0; 0; 1].
Example C111_case_identity : identity (dw (sz mat_a)) mat_i /\ product_of UINT8 mat_a mat_i mat_a.
Proof.
  split; [split; [split; [repeat split; cbn; lia|reflexivity]|split; [reflexivity|]]|].
  - intros x y Hx Hy. cbn in Hx, Hy. assert (Kx : x = 0 \/ x = 1 \/ x = 2) by lia. assert (Ky : y = 0 \/ y = 1 \/ y = 2) by lia. destruct Kx as [Kx|[Kx|Kx]], Ky as [Ky|[Ky|Ky]]; subst; reflexivity.
  - split; [split; [repeat split; cbn; lia|reflexivity]|split; [reflexivity|]]. intros x y Hx Hy. cbn in Hx, Hy. assert (Kx : x = 0 \/ x = 1 \/ x = 2) by lia. assert (Ky : y = 0 \/ y = 1) by lia. destruct Kx as [Kx|[Kx|Kx]], Ky as [Ky|Ky]; subst; (split; [unfold inside; cbn; lia|reflexivity]).
Qed.
