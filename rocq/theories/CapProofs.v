(** The number of vertices is at most a prime number, which is at most the maximum asked for. *)
From Coq Require Import Sorted Permutation Znumtheory.
From Verif Require Import Base Prog Geometry Ctx Utils Contracts Spec RangeSpec WindSpec GeneralSpec HullSpec Factories Strategies QcTac QcFast ProgProofs PrimeProofs TriProofs
  GeomProofs CyclicProofs ListProofs SegmentProofs SimpleProofs GridProofs ConvexProofs CycEdge BorderProofs Jordan MultiProofs ContourProofs SequenceProofs
  GeometryApiProofs HullProofs Planar GeneralProofs GeneralPolyProofs PolyFaultProofs FaultProofs DelGeo PlanarProofs RangeProofs SeparationProofs CarveProofs
  SliceProofs MultipolygonProofs MixSpec MixProofs MixApiProofs GeneralApiProofs StarSpec StarProofs StarApi StarGeneral ValtrProofs RelaxSpec.
Import List ListNotations.
Open Scope Z_scope.

Lemma grid_cap xs ys mn m l : prime_between mn (Some m) ->
  generates (to_point_sequence_in_general_position_strategy xs ys mn (Some m)) l -> prime (lenZ l) /\ lenZ l <= m /\ NoDup l.
Proof.
  intros P H. apply grid_sound in H. destruct H as [_ (lower & E & _) Hu (n & xl & yl & _ & _ & _ & _ & _ & (Hp & _) & _) N _ _ _].
  split; [exact Hp|]. split; [|exact N]. specialize (Hu m lower eq_refl E). destruct (P m eq_refl) as (q & Hq & H3 & Hm).
  apply to_next_prime_ge in E. destruct E as (_ & _ & _ & _ & E). specialize (E q Hq H3 ltac:(lia)). lia.
Qed.
Lemma among {A} (vs points : list A) m : NoDup vs -> incl vs points -> prime (lenZ points) -> lenZ points <= m -> prime_capped m (lenZ vs).
Proof. intros N I P L. exists (lenZ points). split; [exact P|]. split; [exact L|]. unfold lenZ. pose proof (NoDup_incl_length N I). lia. Qed.
Lemma few mn m n : prime_between mn (Some m) -> n <= 4 -> prime_capped m n.
Proof. intros P L. destruct (P m eq_refl) as (q & Hq & H3 & Hm). exists q. split; [exact Hq|]. lia. Qed.

Lemma walk_length v : forall x y a b, length (fst (walk v x y a b)) = length v.
Proof.
  induction v as [|(vx, vy) v IH]; intros x y a b; cbn [walk fst length]; [reflexivity|].
  specialize (IH (x + vx)%Qc (y + vy)%Qc (qmin a (x + vx)) (qmin b (y + vy))%Qc).
  destruct (walk v _ _ _ _) as (pairs & mins). cbn [fst length] in *. rewrite IH. reflexivity.
Qed.
Lemma mapM_length {A B} (f : A -> res B) l : forall r, mapM f l = Ok r -> length r = length l.
Proof.
  induction l as [|a l IH]; intros r H; cbn [mapM] in H; [injection H as <-; reflexivity|].
  apply rbind_ok in H. destruct H as (b & _ & H). apply rbind_ok in H. destruct H as (r' & Hr & H). injection H as <-. cbn [length]. f_equal. apply IH, Hr.
Qed.
Lemma convex_sequence_cap ctx points bx by_ sh vs : (forall l, is_hull l (ctx_hull ctx l)) ->
  to_convex_vertex_sequence ctx points bx by_ sh = Ok vs -> lenZ vs <= lenZ points.
Proof.
  intros Hh. unfold to_convex_vertex_sequence.
  destruct (split_ends (isort qleb (map px points))) as [((x0, xm), x1)|] eqn:Ex; [|discriminate].
  destruct (split_ends (isort qleb (map py points))) as [((y0, ym), y1)|] eqn:Ey; [|discriminate].
  destruct (steps_spec _ _ _ _ bx Ex) as (Lx & _).
  cbv zeta. set (sx := to_vectors_coordinates xm bx x0 x1) in *. set (sy := to_vectors_coordinates ym by_ y0 y1) in *.
  destruct (mapM _ _) as [keyed|e] eqn:Ek; cbn [rbind]; [|discriminate].
  apply mapM_length in Ek. rewrite combine_length in Ek.
  set (steps := map snd (isort _ keyed)). assert (Ls : (length steps <= length points)%nat).
  { unfold steps. rewrite map_length, isort_length. rewrite map_length in Lx. lia. }
  pose proof (walk_length steps 0 0 0 0) as Lw. destruct (walk steps 0 0 0 0) as (pairs & (mx & my)). intros H. injection H as <-. cbn [fst] in Lw.
  match goal with |- lenZ (ctx_hull ctx ?l) <= _ => destruct (Hh l) as (N & I & _); pose proof (NoDup_incl_length N I) as L end.
  rewrite map_length in L. unfold lenZ. lia.
Qed.

Lemma convex_strategy_cap ctx xs ys mn m vs : (forall l, is_hull l (ctx_hull ctx l)) -> prime_between mn (Some m) ->
  generates (to_convex_vertex_sequence_strategy ctx xs ys mn (Some m)) vs -> prime_capped m (lenZ vs).
Proof.
  intros Hh P H. unfold to_convex_vertex_sequence_strategy in H.
  assert (T : generates (to_triangular_vertex_sequence_strategy xs ys) vs -> prime_capped m (lenZ vs)).
  { intros G. apply (few mn); [exact P|]. apply gen_triangle in G. destruct G as (a & b & c & -> & _). cbn. lia. }
  assert (R : generates (to_rectangular_vertex_sequence_strategy xs ys) vs -> prime_capped m (lenZ vs)).
  { intros G. apply (few mn); [exact P|]. apply gen_rectangle in G. destruct G as (x0 & x1 & y0 & y1 & -> & _). cbn. lia. }
  destruct (m <? CONCAVE); [auto|]. cbv zeta in H.
  match type of H with context [pfilter ?f ?p] => set (r := pfilter f p) in * end.
  assert (Hres : generates r vs -> prime_capped m (lenZ vs)).
  { unfold r. intros G. apply gen_pfilter in G. destruct G as (G & _). apply gen_bind in G. destruct G as (points & Hp & G).
    apply gen_bind in G. destruct G as (bx & _ & G). apply gen_bind in G. destruct G as (by_ & _ & G). apply gen_bind in G. destruct G as (perm & _ & G).
    apply gen_lift in G. apply (convex_sequence_cap _ _ _ _ _ _ Hh) in G. apply (grid_cap _ _ _ _ _ P) in Hp.
    exists (lenZ points). split; [apply Hp|]. lia. }
  assert (Hr2 : generates (if (mn <=? 4)%Z then alt (to_rectangular_vertex_sequence_strategy xs ys) r else r) vs -> prime_capped m (lenZ vs)).
  { destruct (mn <=? 4)%Z; [|exact Hres]. intros G. apply gen_alt in G. destruct G as [G|G]; auto. }
  destruct (mn =? 3)%Z; [|apply Hr2, H]. apply gen_alt in H. destruct H as [H|H]; auto.
Qed.
Lemma star_strategy_cap ctx xs ys mn m vs : prime_between mn (Some m) ->
  generates (to_star_vertex_sequence_strategy ctx xs ys mn (Some m)) vs -> prime_capped m (lenZ vs).
Proof.
  intros P H. unfold to_star_vertex_sequence_strategy in H. apply gen_pfilter in H. destruct H as (H & _). apply gen_bind in H. destruct H as (points & Hp & H).
  apply gen_lift in H. destruct (grid_cap _ _ _ _ _ P Hp) as (Pp & Lp & N). destruct (star_spec _ _ _ N H) as (I & Nv & _). eapply among; eassumption.
Qed.
Lemma carved_strategy_cap ctx xs ys mn m vs : prime_between mn (Some m) -> NoDup vs ->
  generates (to_carved_vertex_sequence_strategy ctx xs ys mn (Some m)) vs -> prime_capped m (lenZ vs).
Proof.
  intros P Nv H. unfold to_carved_vertex_sequence_strategy in H. apply gen_pfilter in H. destruct H as (H & _). apply gen_bind in H. destruct H as (points & Hp & H).
  apply gen_bind in H. destruct H as (size & _ & H). apply gen_lift in H. destruct (grid_cap _ _ _ _ _ P Hp) as (Pp & Lp & N).
  eapply among; [exact Nv| |exact Pp|exact Lp]. intros p I. eapply to_vertex_sequence_in; eassumption.
Qed.
Lemma vertex_sequences_cap ctx xs ys mn m vs : prime_between mn (Some m) -> NoDup vs ->
  generates (to_vertex_sequences_ ctx xs ys mn (Some m)) vs -> prime_capped m (lenZ vs).
Proof.
  intros P Nv H. unfold to_vertex_sequences_ in H. apply gen_alt in H. destruct H as [H|H]; [eapply star_strategy_cap|eapply carved_strategy_cap]; eassumption.
Qed.
Lemma between_max l mn m : l <= 5 -> prime_between mn (Some m) -> prime_between (Z.max mn l) (Some m).
Proof.
  intros Hl P k E. destruct (P k E) as (q & Hq & H3 & Hm). exists q. split; [exact Hq|]. assert (q <> 4). { intros ->. apply prime_alt in Hq. destruct Hq as (_ & K). apply (K 2); [lia|]. exists 2. reflexivity. } lia.
Qed.

(** ** The public API. *)
Lemma convex_contours_cap ctx xs ys mn m w s vs : (forall l, is_hull l (ctx_hull ctx l)) -> prime_between mn (Some m) ->
  convex_contours ctx xs ys mn (Some m) = Ok (w, s) -> generates s vs -> prime_capped m (lenZ vs).
Proof.
  intros Hh P H. unfold convex_contours in H. validate; try discriminate. injection H as _ <-.
  apply convex_strategy_cap; [exact Hh|]. apply between_max; [|exact P]. unfold CONVEX; lia.
Qed.
Lemma star_contours_cap ctx xs ys mn m w s vs : prime_between mn (Some m) ->
  star_contours ctx xs ys mn (Some m) = Ok (w, s) -> generates s vs -> prime_capped m (lenZ vs).
Proof.
  intros P H. unfold star_contours in H. validate; try discriminate. injection H as _ <-.
  apply star_strategy_cap. apply between_max; [|exact P]. change MIN_CONTOUR_SIZE with 3. lia.
Qed.
Lemma contours_cap ctx xs ys mn m w s vs : (forall l, is_hull l (ctx_hull ctx l)) -> prime_between mn (Some m) ->
  contours ctx xs ys mn (Some m) = Ok (w, s) -> generates s vs -> NoDup vs -> prime_capped m (lenZ vs).
Proof.
  intros Hh P H Hg N. unfold contours in H. validate; try discriminate. injection H as _ <-.
  apply (between_max 3) in P; [|lia]. unfold to_vertex_sequence_strategy in Hg. apply gen_alt in Hg.
  destruct Hg as [Hg|Hg]; [eapply convex_strategy_cap|eapply vertex_sequences_cap]; eassumption.
Qed.
Lemma concave_contours_cap ctx xs ys mn m w s vs : prime_between mn (Some m) ->
  concave_contours ctx xs ys mn (Some m) = Ok (w, s) -> generates s vs -> NoDup vs -> prime_capped m (lenZ vs).
Proof.
  intros P H Hg N. unfold concave_contours in H. validate; try discriminate. injection H as _ <-.
  apply (between_max 4) in P; [|lia]. unfold to_concave_vertex_sequence_strategy in Hg. apply gen_pfilter_res in Hg. destruct Hg as (Hg & _).
  eapply vertex_sequences_cap; eassumption.
Qed.
Lemma contours_general_cap ctx xs ys mn m w s vs : contracts ctx -> orders_directions ctx -> (forall l, is_hull l (ctx_hull ctx l)) ->
  general_coordinates xs ys -> prime_between mn (Some m) ->
  contours ctx xs ys mn (Some m) = Ok (w, s) -> generates s vs -> prime_capped m (lenZ vs).
Proof.
  intros C Ho Hh G P H Hg. eapply contours_cap; try eassumption.
  destruct (contours_wound ctx C Ho Hh _ _ _ _ _ _ _ G H Hg) as [((J & _) & _)|(((J & _) & _) & _)]; exact J.
Qed.
Lemma concave_contours_general_cap ctx xs ys mn m w s vs : contracts ctx -> orders_directions ctx ->
  general_coordinates xs ys -> prime_between mn (Some m) ->
  concave_contours ctx xs ys mn (Some m) = Ok (w, s) -> generates s vs -> prime_capped m (lenZ vs).
Proof.
  intros C Ho G P H Hg. eapply concave_contours_cap; try eassumption.
  destruct (concave_contours_general ctx C Ho _ _ _ _ _ _ _ G H Hg) as (((J & _) & _) & _); exact J.
Qed.
