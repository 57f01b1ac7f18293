(** Services of the dependencies whose result is not given by a short formula, or is
    determined only up to a choice, and the iteration bound of the model's loops.  The
    theorems that need something of these services state it as a hypothesis. *)
From Verif Require Import Base Geometry.

Record context := Context {
  (* not in Python: the number of iterations after which a modelled [while] loop of
     triangular.py or factories.py gives up with [OutOfFuel] *)
  ctx_fuel : positive;
  (* [decision.partition.coin_change(amount, {2, 3})]: [amount] as a sum of twos and
     threes *)
  ctx_coins : nat -> list nat;
  (* [ground.context.Context.points_convex_hull] *)
  ctx_hull : list point -> list point;
  (* [math.atan2(y, x)] on the floats nearest to the arguments; a float is a rational.
     Arguments too large for a float raise [OverflowError]. *)
  ctx_atan2 : Qc -> Qc -> res Qc;
  (* [locus.segmental.Tree(segments).nearest_segment(segment)] *)
  ctx_nearest : list segment -> segment -> segment
}.
