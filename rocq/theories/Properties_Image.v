(** Properties C09 and C10: [image_valid]. *)
From Verif Require Import Image_proofs Image_witness.
Local Open Scope N_scope.

(** C09: for fewer than 2^32 pixels [image_valid] returns, without an access
    outside [data], whether the image is valid; for every build whose index type
    has at least 32 bits. *)
Theorem C09_image_valid_decides (T : target) (img : image) :
  2 ^ 32 <= wmod T -> consistent_image img -> width img * height img < 2 ^ 32 ->
  exists b, image_valid T img = Ok b /\ (b = true <-> valid_image img).
Proof. exact (image_valid_decides T img). Qed.
Print Assumptions C09_image_valid_decides.

Example C09_hypotheses : consistent_image small_image /\ width small_image * height small_image < 2 ^ 32
  /\ valid_image small_image.
Proof. exact small_image_ok. Qed.
Example C09_hypotheses_invalid : consistent_image bad_image /\ width bad_image * height bad_image < 2 ^ 32
  /\ ~ valid_image bad_image.
Proof. exact bad_image_ok. Qed.

(** C10 is violated.  There is a valid image with data of the right size for
    which the loop runs forever, and there is an image object, with nonzero
    dimensions, for which it reads outside the array. *)
Theorem C10_image_valid_total_refuted (T : target) :
  2 ^ 32 < wmod T ->
  (exists img, consistent_image img /\ valid_image img /\
     forall fuel, image_valid_fuel T fuel img = Stop Diverge) /\
  (exists img, width img = 2 /\ height img = 2 /\ image_valid T img = Stop Undef).
Proof. exact (image_valid_not_total T). Qed.
Print Assumptions C10_image_valid_total_refuted.

(** The bound on the iterations in the model is not the reason: whenever some
    number of iterations gives an answer, [image_valid] gives it. *)
Theorem C10_iterations_enough (T : target) (img : image) (fuel : nat) :
  image_valid_fuel T fuel img <> Stop Diverge ->
  image_valid_fuel T fuel img = image_valid T img.
Proof. exact (image_valid_fuel_enough T img fuel). Qed.
Print Assumptions C10_iterations_enough.

Example C10_hypotheses : image_valid_fuel cpu 10 small_image <> Stop Diverge.
Proof. exact small_image_fuel. Qed.
