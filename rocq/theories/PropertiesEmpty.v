(** C79: star contours of exactly a prime number of vertices. *)
From Coq Require Import Znumtheory.
From Verif Require Import Base Prog Geometry Ctx Utils Contracts Planar Spec StarSpec
  Factories Strategies ProgProofs EmptyProofs Reference ReferenceProofs StarOrder PropertiesContours PropertiesMixes.
Import List ListNotations.
Local Open Scope Z_scope.

(** ** C79: [star_contours] accepts, but can generate nothing with, a prime minimum of at least 11
    and a maximum below the next prime number, whatever the coordinates are. *)
Theorem C79_star_contours_empty : forall ctx xs ys mn m w s, orders_directions ctx ->
  prime mn -> 11 <= mn -> (forall q, prime q -> mn < q -> m < q) ->
  star_contours ctx xs ys mn (Some m) = Ok (w, s) -> forall vs, ~ generates s vs.
Proof. exact (fun ctx xs ys mn m w s D P H11 Hq H vs => star_contours_empty ctx xs ys mn m w s vs D P H11 Hq H). Qed.
Print Assumptions C79_star_contours_empty.

(** Exactly 11 vertices, and 11 or 12 vertices, with a hundred coordinates to choose from. *)
Example C79_eleven : orders_directions reference /\ prime 11 /\ (forall q, prime q -> 11 < q -> 12 < q) /\
  exists w s w' s', star_contours reference (upto 100) None 11 (Some 11) = Ok (w, s) /\
    star_contours reference (upto 100) None 11 (Some 12) = Ok (w', s').
Proof.
  split; [exact reference_directions|]. split; [|split].
  - apply prime_alt. split; [lia|]. intros n Hn (k & E).
    assert (n = 2 \/ n = 3 \/ n = 4 \/ n = 5 \/ n = 6 \/ n = 7 \/ n = 8 \/ n = 9 \/ n = 10) as [-> |[-> |[-> |[-> |[-> |[-> |[-> |[-> | ->]]]]]]]] by lia; lia.
  - intros q P Hq. destruct (Z.eq_dec q 12) as [-> |]; [|lia]. exfalso. apply prime_alt in P. destruct P as (_ & P).
    apply (P 2); [lia|]. exists 6. reflexivity.
  - do 4 eexists. split; reflexivity.
Qed.
(** The bound on the prime number is sharp: with exactly 7 vertices there are star contours. *)
Example C79_seven : exists w s, star_contours reference (upto 6) None 7 (Some 7) = Ok (w, s) /\
  generates s (ints [(1, 3); (0, 0); (6, 3); (5, 5); (4, 6); (3, 6); (2, 5)]).
Proof.
  do 2 eexists. split; [reflexivity|]. apply (run_sound _ [7; 0; 1; 2; 3; 4; 5; 6; 7; 0; 1; 2; 3; 4; 5; 6; 0; 0; 3]). vm_compute. reflexivity.
Qed.
