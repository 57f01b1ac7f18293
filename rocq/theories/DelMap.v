(** Straight-line maps: the neighbours of every point, ordered counterclockwise. *)
From Coq Require Import List Lia Wf_nat.
From Verif Require Import Base Geometry Spec QcTac QcFast GeomProofs DelGeo DelCyc.
Import ListNotations.
Open Scope Qc_scope.

Record map := Map { me : point -> point -> Prop; mn : point -> point -> point; mp : point -> point -> point }.

(** The segments [a b] and [c d] cross, [c] being on the left of [a b]. *)
Definition crossing (a b c d : point) : Prop :=
  0 < cross a b c /\ cross a b d < 0 /\ cross c d a < 0 /\ 0 < cross c d b.

Record laws (S : list point) (m : map) : Prop := Laws {
  l_sym : forall v a, me m v a -> me m a v;
  l_ne : forall v a, me m v a -> a <> v;
  l_in : forall v a, me m v a -> In v S;
  l_next : forall v a, me m v a -> me m v (mn m v a) /\ mp m v (mn m v a) = a;
  l_prev : forall v a, me m v a -> me m v (mp m v a) /\ mn m v (mp m v a) = a;
  l_sorted : forall v a x, me m v a -> me m v x -> ad v a (mn m v a) <= ad v a x;
  l_clean : forall v a q, me m v a -> In q S -> ~ btw q v a;
  l_planar : forall a b c d, me m a b -> me m c d -> ~ crossing a b c d }.

Definition empty (S : list point) (a b c : point) : Prop :=
  0 < cross a b c /\ forall q, In q S -> inc a b c q <= 0.
Definition DE (S : list point) (a b : point) : Prop := forall c q, In c S -> In q S ->
  0 < cross a b c -> cross a b q < 0 -> inc a b c q <= 0.
Definition sndel (S : list point) (a b : point) : Prop := exists c q, In c S /\ In q S /\
  0 < cross a b c /\ cross a b q < 0 /\ 0 < inc a b c q.

(** The triangle [a b c] has no other point, inside or on a side. *)
Definition vacant (S : list point) (a b c : point) : Prop :=
  0 < cross a b c /\ forall q, In q S -> 0 <= cross a b q -> 0 <= cross b c q -> 0 <= cross c a q -> q = a \/ q = b \/ q = c.
Definition tri (S : list point) (m : map) (v a b : point) : Prop := empty S v a b /\ me m a b.
Definition vtri (S : list point) (m : map) (v a b : point) : Prop := vacant S v a b /\ me m a b.
Definition gap (S : list point) (v a b : point) : Prop :=
  q2 <= ad v a b /\ forall q, In q S -> q <> v -> ad v a b <= ad v a q.

Record DT (S : list point) (m : map) : Prop := MkDT {
  d_laws : laws S m;
  d_nbr : forall v w, In v S -> In w S -> w <> v -> exists a, me m v a;
  d_corner : forall v a, me m v a -> tri S m v a (mn m v a) \/ gap S v a (mn m v a) }.

(** ** Lists *)
Lemma min_exists {A} (Q : A -> Prop) (R : A -> A -> Prop) (l : list A) :
  (forall x, {Q x} + {~ Q x}) ->
  (forall x y, Q x -> Q y -> R x y \/ R y x) ->
  (forall x y z, Q x -> Q y -> Q z -> R x y -> R y z -> R x z) ->
  (exists x, In x l /\ Q x) -> exists x, In x l /\ Q x /\ forall y, In y l -> Q y -> R x y.
Proof.
  intros D T Tr. induction l as [|a l IH]; [intros (x & [] & _)|]. intros (x & Hx & Qx).
  assert (C : (exists x, In x l /\ Q x) \/ ~ (exists x, In x l /\ Q x)).
  { clear -D. induction l as [|b l IH]; [right; intros (? & [] & _)|].
    destruct (D b); [left; exists b; cbn; auto|]. destruct IH as [(y & ? & ?)|nn]; [left; exists y; cbn; auto|].
    right. intros (y & [<-|h] & Qy); [contradiction|apply nn; eauto]. }
  destruct C as [C|C].
  - destruct (IH C) as (y & Hy & Qy & My). destruct (D a) as [Qa|Qa].
    + destruct (T a y Qa Qy) as [h|h].
      * exists a. split; [cbn; auto|]. split; [assumption|]. intros z [<-|Hz] Qz; [destruct (T a a Qa Qa); assumption|].
        apply (Tr a y z); auto.
      * exists y. split; [cbn; auto|]. split; [assumption|]. intros z [<-|Hz] Qz; auto.
    + exists y. split; [cbn; auto|]. split; [assumption|]. intros z [<-|Hz] Qz; [contradiction|auto].
  - destruct Hx as [<-|Hx]; [|exfalso; apply C; eauto].
    exists a. split; [cbn; auto|]. split; [assumption|]. intros z [<-|Hz] Qz; [destruct (T a a Qx Qx); assumption|].
    exfalso; apply C; eauto.
Qed.
Lemma ex_in_dec {A} (Q : A -> Prop) (l : list A) : (forall x, {Q x} + {~ Q x}) ->
  {exists x, In x l /\ Q x} + {forall x, In x l -> ~ Q x}.
Proof.
  intros D. induction l as [|a l IH]; [right; intros ? []|].
  destruct (D a); [left; exists a; cbn; auto|]. destruct IH as [h|h].
  - left. destruct h as (x & ? & ?). exists x; cbn; auto.
  - right. intros x [<-|Hx]; auto.
Qed.
Lemma filter_lt {A} (f g : A -> bool) (l : list A) x :
  (forall y, f y = true -> g y = true) -> In x l -> f x = false -> g x = true ->
  (length (filter f l) < length (filter g l))%nat.
Proof.
  intros H. assert (W : forall l, (length (filter f l) <= length (filter g l))%nat).
  { clear -H. induction l as [|b l IH]; [auto|]. cbn. destruct (f b) eqn:F; [rewrite (H b F); cbn; lia|].
    destruct (g b); cbn; lia. }
  induction l as [|b l IH]; [intros []|]. intros [->|h] F G; cbn.
  - rewrite F, G. cbn. specialize (W l). lia.
  - specialize (IH h F G). destruct (f b) eqn:Fb; [rewrite (H b Fb); cbn; lia|]. destruct (g b); cbn; lia.
Qed.
Lemma qlt_dec (x y : Qc) : {x < y} + {~ x < y}.
Proof. destruct (Qclt_le_dec x y); [left; assumption|right; ql]. Qed.

(** ** Facts about directions *)
Lemma ad_step v a b w : a <> v -> b <> v -> w <> v -> ad v a b < ad v a w ->
  ad v b w = ad v a w - ad v a b.
Proof.
  intros. destruct (ad_tri v a b w) as [h|h]; try assumption; [ql|].
  pose proof (ad_range v b w ltac:(assumption) ltac:(assumption)). destruct H3. ql.
Qed.
Lemma ad_eq v a b w : a <> v -> b <> v -> w <> v -> ad v a b = ad v a w -> ad v b w = q4.
Proof.
  intros. destruct (ad_tri v a b w) as [h|h]; try assumption; [|ql].
  pose proof (ad_range v b w ltac:(assumption) ltac:(assumption)). destruct H3. exfalso. ql.
Qed.
(** Past [b] but not as far as a full turn. *)
Lemma ad_le_tri v a b w : a <> v -> b <> v -> w <> v -> ad v a b <= ad v a w ->
  ad v b w = ad v a w - ad v a b \/ ad v b w = q4.
Proof.
  intros. destruct (Qcle_lt_or_eq _ _ H2) as [h|h]; [left; apply ad_step; auto|right; apply (ad_eq v a); auto].
Qed.

Lemma empty_vacant S a b c : empty S a b c -> vacant S a b c.
Proof.
  intros (P & Em). split; [exact P|]. intros q Hq h1 h2 h3.
  destruct (point_eq_dec q a) as [|na]; [auto|]. destruct (point_eq_dec q b) as [|nb]; [auto|]. destruct (point_eq_dec q c) as [|nc]; [auto|].
  exfalso. pose proof (triangle_in_disc a b c q P h1 h2 h3 na nb nc). pose proof (Em q Hq). ql.
Qed.
Lemma tri_vtri S m v a b : tri S m v a b -> vtri S m v a b.
Proof. intros (t & e). split; [apply empty_vacant, t|exact e]. Qed.
Lemma vacant_neq S v a b : vacant S v a b -> a <> v /\ b <> v /\ a <> b.
Proof.
  intros (P & _). repeat split; intros ->; [rewrite cross_aab in P|rewrite cross_aba in P|rewrite cross_abb in P]; ql.
Qed.
Lemma vacant_rot S v a b : vacant S v a b -> vacant S a b v.
Proof.
  intros (P & Q). split; [rewrite cross_rot; exact P|]. intros q Hq h1 h2 h3. destruct (Q q Hq h3 h1 h2) as [h|[h|h]]; auto.
Qed.

Section L.
Context (S : list point) (m : map) (W : laws S m).
Notation E := (me m).

Lemma e_in2 v a : E v a -> In a S.
Proof. intros H. apply (l_in _ _ W _ v), (l_sym _ _ W), H. Qed.
Lemma e_ne2 v a : E v a -> v <> a.
Proof. intros H e. apply (l_ne _ _ W _ _ H). auto. Qed.

(** Neighbours in the same direction are the same. *)
Lemma same_nbr v a b : E v a -> E v b -> ad v a b = q4 -> a = b.
Proof.
  intros Ha Hb H. destruct (same_btw v a b) as [h|[h|h]]; eauto using (l_ne _ _ W).
  - exfalso. apply (l_clean _ _ W v b a Hb); [apply (e_in2 v), Ha|exact h].
  - exfalso. apply (l_clean _ _ W v a b Ha); [apply (e_in2 v), Hb|exact h].
Qed.

(** Some corner at [v] contains the direction to [w]. *)
Lemma coverage (Q : point -> Prop) v a w : E v a -> w <> v -> Q a ->
  (forall x, E v x -> Q x -> Q (mn m v x)) ->
  exists x, E v x /\ Q x /\ ad v x w <= ad v x (mn m v x).
Proof.
  intros Ha Hw Qa QN. remember (length (filter (fun s => qltb (ad v s w) (ad v a w)) S)) as k eqn:Ek.
  revert a Ha Qa Ek. induction k as [k IH] using lt_wf_ind. intros a Ha Qa ->.
  destruct (Qclt_le_dec (ad v a (mn m v a)) (ad v a w)) as [h|h]; [|exists a; auto].
  destruct (l_next _ _ W _ _ Ha) as (Hb & _). set (b := mn m v a) in *.
  assert (st : ad v b w = ad v a w - ad v a b) by (apply ad_step; eauto using (l_ne _ _ W)).
  pose proof (ad_range v a b (l_ne _ _ W _ _ Ha) (l_ne _ _ W _ _ Hb)) as (r & _).
  apply (IH (length (filter (fun s => qltb (ad v s w) (ad v b w)) S))) with (a := b); auto.
  - apply (filter_lt _ _ _ b).
    + intros y Hy. apply qltb_lt in Hy. apply qltb_lt. ql.
    + apply (e_in2 v), Hb.
    + apply qltb_ge. ql.
    + apply qltb_lt. ql.
  - unfold b. auto.
Qed.
(** What holds of a neighbour and is passed on holds of all of them. *)
Lemma all_nbrs (Q : point -> Prop) v a w : E v a -> E v w -> Q a ->
  (forall x, E v x -> Q x -> Q (mn m v x)) -> Q w.
Proof.
  intros Ha Hw Qa QN. destruct (coverage Q v a w Ha (l_ne _ _ W _ _ Hw) Qa QN) as (x & Hx & Qx & Cx).
  destruct (l_next _ _ W _ _ Hx) as (Hy & _).
  assert (e : mn m v x = w).
  { apply (same_nbr v); auto. apply (ad_eq v x); eauto using (l_ne _ _ W).
    apply Qcle_antisym; [apply (l_sorted _ _ W); auto|exact Cx]. }
  rewrite <- e. auto.
Qed.

(** An empty triangle whose side opposite to [v] is an edge: no edge from [v] enters it. *)
Lemma vcone_free v a b x : vacant S v a b -> E a b -> E v x -> 0 <= cross v a x -> 0 <= cross v x b ->
  x = a \/ x = b.
Proof.
  intros (P & Em) Hab Hx C1 C2.
  assert (a <> v /\ b <> v /\ a <> b) as (Nav & Nbv & Nab).
  { repeat split; intros ->; [rewrite cross_aab in P|rewrite cross_aba in P|rewrite cross_abb in P]; ql. }
  pose proof (l_ne _ _ W _ _ Hx) as Nx.
  destruct (Qclt_le_dec (cross a b x) 0) as [h|h].
  - exfalso. destruct (Qcle_lt_or_eq _ _ C1) as [c1|c1]; [destruct (Qcle_lt_or_eq _ _ C2) as [c2|c2]|].
    + apply (l_planar _ _ W v x b a); auto; [apply (l_sym _ _ W), Hab|]. red.
      rewrite (cross_swap v a x), (cross_flip a b v), (cross_rot v a b), (cross_flip a b x). repeat split; ql.
    + (* x in the direction of b, beyond it *)
      assert (K : cross a b x * d2 v b = cross v a b * (d2 v b - dot v b x) + cross v b x * (d2 v b - dot v b a)) by (unfold cross, d2, dot; ring).
      rewrite (cross_swap v x b), <- c2 in K.
      assert (0 < d2 v b) by (apply d2_pos; congruence).
      assert (d : 0 < dot v b x - d2 v b).
      { apply (pos_of_mul (cross v a b)); [exact P|].
        replace (cross v a b * (dot v b x - d2 v b)) with (- (cross a b x * d2 v b)) by (rewrite K; ring).
        pose proof (mul_neg (d2 v b) (cross a b x)) as M. rewrite (Qcmult_comm (cross a b x)). specialize (M ltac:(assumption) h). ql. }
      apply (l_clean _ _ W v x b Hx); [apply (e_in2 a), Hab|]. split; [symmetry; exact c2|].
      replace (dot b v x) with (d2 v b - dot v b x) by (unfold dot, d2; ring). ql.
    + assert (K : cross a b x * d2 v a = cross v a b * (d2 v a - dot v a x) + cross v a x * (dot v a b - d2 v a)) by (unfold cross, d2, dot; ring).
      rewrite <- c1 in K.
      assert (0 < d2 v a) by (apply d2_pos; congruence).
      assert (d : 0 < dot v a x - d2 v a).
      { apply (pos_of_mul (cross v a b)); [exact P|].
        replace (cross v a b * (dot v a x - d2 v a)) with (- (cross a b x * d2 v a)) by (rewrite K; ring).
        pose proof (mul_neg (d2 v a) (cross a b x)) as M. rewrite (Qcmult_comm (cross a b x)). specialize (M ltac:(assumption) h). ql. }
      apply (l_clean _ _ W v x a Hx); [apply (l_in _ _ W a b), Hab|].
      split; [rewrite cross_swap, <- c1; ring|].
      replace (dot a v x) with (d2 v a - dot v a x) by (unfold dot, d2; ring). ql.
  - destruct (point_eq_dec x a) as [|na]; [auto|]. destruct (point_eq_dec x b) as [|nb]; [auto|]. exfalso.
    destruct (Em x (e_in2 v x Hx) C1 h) as [e|[e|e]]; try contradiction. rewrite <- (cross_rot b v x). exact C2.
Qed.
Lemma cone_free v a b x : empty S v a b -> E a b -> E v x -> 0 <= cross v a x -> 0 <= cross v x b ->
  x = a \/ x = b.
Proof. intros H. apply vcone_free, empty_vacant, H. Qed.

Lemma empty_neq v a b : empty S v a b -> a <> v /\ b <> v /\ a <> b.
Proof.
  intros (P & _). repeat split; intros ->; [rewrite cross_aab in P|rewrite cross_aba in P|rewrite cross_abb in P]; ql.
Qed.
Lemma empty_rot v a b : empty S v a b -> empty S a b v.
Proof.
  intros (P & Q). split; [rewrite cross_rot; exact P|]. intros q Hq. rewrite inc_rot. auto.
Qed.
(** A triangle of edges is a corner. *)
Lemma vtri_corner v a b : vacant S v a b -> E v a -> E v b -> E a b -> mn m v a = b.
Proof.
  intros He Ha Hb Hab. destruct (l_next _ _ W _ _ Ha) as (Hx & _).
  pose proof (l_sorted _ _ W _ _ _ Ha Hb) as So. set (x := mn m v a) in *.
  pose proof (l_ne _ _ W _ _ Ha) as Na. pose proof (l_ne _ _ W _ _ Hb) as Nb. pose proof (l_ne _ _ W _ _ Hx) as Nx.
  destruct (ad_pos v a b Na Nb (proj1 He)) as (r1 & r2).
  destruct (Qcle_lt_or_eq _ _ So) as [h|h].
  - assert (st : ad v x b = ad v a b - ad v a x) by (apply ad_step; auto).
    pose proof (ad_range v a x Na Nx) as (r3 & _).
    assert (0 < cross v a x) by (apply ad_pos_iff; auto; ql).
    assert (0 < cross v x b) by (apply ad_pos_iff; auto; ql).
    destruct (vcone_free v a b x He Hab Hx) as [e|e]; [ql|ql| |exact e].
    exfalso. rewrite e, ad_self in h. ql.
  - apply (same_nbr v); auto. apply (ad_eq v a); auto.
Qed.
Lemma tri_corner v a b : empty S v a b -> E v a -> E v b -> E a b -> mn m v a = b.
Proof. intros He. apply vtri_corner, empty_vacant, He. Qed.
Lemma DE_sndel a b : DE S a b -> sndel S a b -> False.
Proof. intros H (c & q & Hc & Hq & h1 & h2 & h3). specialize (H c q Hc Hq h1 h2). ql. Qed.
Lemma DE_sym a b : DE S a b -> DE S b a.
Proof.
  intros H c q Hc Hq h1 h2. rewrite cross_flip in h1, h2.
  specialize (H q c Hq Hc ltac:(ql) ltac:(ql)). rewrite inc_swap.
  rewrite inc_last in H. ql.
Qed.
Lemma empty_DE a b c : empty S a b c -> DE S a b.
Proof.
  intros (P & Q) c' q Hc Hq h1 h2. apply (nonpos_of_mul (cross a b c)); [exact P|]. rewrite pencil.
  pose proof (Q c' Hc) as I1. pose proof (Q q Hq) as I2. rewrite inc_last in I1.
  pose proof (mul_nonpos (- cross a b q) (- inc a b c' c)) as M1.
  pose proof (mul_nonpos (cross a b c') (inc a b c q)) as M2.
  specialize (M1 ltac:(ql) ltac:(ql)). specialize (M2 ltac:(ql) I2).
  replace (- cross a b q * - inc a b c' c) with (cross a b q * inc a b c' c) in M1 by ring. ql.
Qed.
Lemma gap_left v a b : b <> v -> a <> v -> gap S v a b -> forall q, In q S -> 0 <= cross v b q.
Proof.
  intros Nb Na (G1 & G2) q Hq. destruct (point_eq_dec q v) as [->|Nq]; [rewrite cross_aba; ql|].
  specialize (G2 q Hq Nq). pose proof (ad_range v a q Na Nq) as (_ & r).
  destruct (ad_le_tri v a b q Na Nb Nq G2) as [h|h].
  - destruct (ad_cases v b q Nb Nq) as [(_&_&?)|[(?&e&?)|[(?&?&?)|(?&e&?)]]]; [ql|ql|exfalso; ql|ql].
  - destruct (ad_same v b q Nb Nq h) as (e & _). ql.
Qed.
Lemma gap_right v a b : b <> v -> a <> v -> gap S v a b -> forall q, In q S -> cross v a q <= 0.
Proof.
  intros Nb Na (G1 & G2) q Hq. destruct (point_eq_dec q v) as [->|Nq]; [rewrite cross_aba; ql|].
  specialize (G2 q Hq Nq). apply ad_ge2; auto. ql.
Qed.
Lemma left_DE a b : (forall q, In q S -> 0 <= cross a b q) -> DE S a b.
Proof. intros H c q _ Hq _ h. specialize (H q Hq). exfalso; ql. Qed.
Lemma right_DE a b : (forall q, In q S -> cross a b q <= 0) -> DE S a b.
Proof. intros H c q Hc _ h _. specialize (H c Hc). exfalso; ql. Qed.
End L.
(** ** Discs *)
Record disc := Disc { dk : Qc; dm : Qc; dn : Qc; dc : Qc }.
Definition pw (D : disc) (q : point) : Qc :=
  dk D * (px q * px q + py q * py q) + dm D * px q + dn D * py q + dc D.
Lemma pw_bary D v a b w : cross v a b * pw D w =
  cross w a b * pw D v + cross v w b * pw D a + cross v a w * pw D b - dk D * inc v a b w.
Proof. unfold pw, inc, incircle, cross. ring. Qed.
Definition circ (a b c : point) : disc :=
  Disc (cross a b c)
   (inc a b c (Pt 0 0) - inc a b c (Pt 1 0) - cross a b c)
   (inc a b c (Pt 0 0) - inc a b c (Pt 0 1) - cross a b c)
   (- inc a b c (Pt 0 0)).
Lemma pw_circ a b c q : pw (circ a b c) q = - inc a b c q.
Proof. unfold pw, circ, inc, incircle, cross; cbn [dk dm dn dc px py]. ring. Qed.
Lemma line_param v w b : v <> w -> cross v w b = 0 ->
  exists t, px b = px v + t * (px w - px v) /\ py b = py v + t * (py w - py v).
Proof.
  intros N C. pose proof (d2_pos _ _ N) as P. exists (dot v b w / d2 v w).
  assert (d2 v w <> 0) by (intros e; rewrite e in P; discriminate P).
  split.
  - assert (e : d2 v w * (px b - px v) = dot v b w * (px w - px v) - cross v w b * (py w - py v)) by (unfold d2, dot, cross; ring).
    rewrite C in e. transitivity (px v + (d2 v w * (px b - px v)) / d2 v w); [field; assumption|rewrite e; field; assumption].
  - assert (e : d2 v w * (py b - py v) = dot v b w * (py w - py v) + cross v w b * (px w - px v)) by (unfold d2, dot, cross; ring).
    rewrite C in e. transitivity (py v + (d2 v w * (py b - py v)) / d2 v w); [field; assumption|rewrite e; field; assumption].
Qed.
Lemma pw_btw D v w b : 0 < dk D -> btw b v w -> pw D v = 0 -> pw D w = 0 -> pw D b < 0.
Proof.
  intros Hk B Pv Pw. destruct (btw_neq _ _ _ B) as (_ & _ & N). destruct B as (C & B).
  destruct (line_param v w b N C) as (t & tx & ty).
  assert (K : pw D b = (1 - t) * pw D v + t * pw D w + dk D * dot b v w).
  { unfold pw, dot. rewrite tx, ty. ring. }
  rewrite K, Pv, Pw. pose proof (mul_neg _ _ Hk B) as M.
  replace ((1 - t) * 0 + t * 0 + dk D * dot b v w) with (dk D * dot b v w) by ring. exact M.
Qed.
(** The chords of an empty disc. *)
Lemma chord S D a b : 0 < dk D -> (forall q, In q S -> 0 <= pw D q) -> pw D a = 0 -> pw D b = 0 -> DE S a b.
Proof.
  intros Hk HS Pa Pb c q Hc Hq h1 h2. apply (nonpos_of_mul (dk D)); [exact Hk|].
  pose proof (pw_bary D a b c q) as K. rewrite Pa, Pb in K.
  pose proof (mul_nonneg (cross a b c) (pw D q) ltac:(ql) (HS q Hq)) as M1.
  pose proof (mul_nonneg (- cross a b q) (pw D c) ltac:(ql) (HS c Hc)) as M2.
  assert (K2 : dk D * inc a b c q = - (- cross a b q * pw D c) - cross a b c * pw D q) by (rewrite K; ring). ql.
Qed.
Lemma empty_disc S a b c : empty S a b c -> 0 < dk (circ a b c) /\ (forall q, In q S -> 0 <= pw (circ a b c) q)
  /\ pw (circ a b c) a = 0 /\ pw (circ a b c) b = 0 /\ pw (circ a b c) c = 0.
Proof.
  intros (P & Q). rewrite !pw_circ, inc_a, inc_b, inc_c. repeat split; try ring; [exact P|].
  intros q Hq. rewrite pw_circ. specialize (Q q Hq). ql.
Qed.
(** Points of an empty disc give empty triangles. *)
Lemma disc_empty S D a b c : 0 < dk D -> (forall q, In q S -> 0 <= pw D q) ->
  pw D a = 0 -> pw D b = 0 -> pw D c = 0 -> 0 < cross a b c -> empty S a b c.
Proof.
  intros Hk HS Pa Pb Pc C. split; [exact C|]. intros q Hq. apply (nonpos_of_mul (dk D)); [exact Hk|].
  pose proof (pw_bary D a b c q) as K. rewrite Pa, Pb, Pc in K.
  pose proof (mul_nonneg (cross a b c) (pw D q) ltac:(ql) (HS q Hq)) as M1.
  assert (K2 : dk D * inc a b c q = - (cross a b c * pw D q)) by (rewrite K; ring). ql.
Qed.
Lemma disc_on D a b c q : 0 < dk D -> pw D a = 0 -> pw D b = 0 -> pw D c = 0 -> inc a b c q = 0 ->
  cross a b c <> 0 -> pw D q = 0.
Proof.
  intros Hk Pa Pb Pc I C. pose proof (pw_bary D a b c q) as K. rewrite Pa, Pb, Pc, I in K.
  assert (cross a b c * pw D q = 0) by (rewrite K; ring). destruct (mul_zero _ _ H); [contradiction|assumption].
Qed.
(** A disc through [a] and [b] meets the line [a b] nowhere else. *)
Lemma disc_line D a b q : 0 < dk D -> pw D a = 0 -> pw D b = 0 -> pw D q = 0 -> a <> b -> cross a b q = 0 -> q = a \/ q = b.
Proof.
  intros Hk Pa Pb Pq N C. destruct (line_param a b q N C) as (t & tx & ty).
  assert (K : pw D q = (1 - t) * pw D a + t * pw D b + dk D * dot q a b).
  { unfold pw, dot. rewrite tx, ty. ring. }
  rewrite Pq, Pa, Pb in K.
  assert (K2 : dk D * (t * ((1 - t) * d2 a b)) = 0).
  { transitivity (- (dk D * dot q a b)); [unfold dot, d2; rewrite tx, ty; ring|].
    transitivity (- ((1 - t) * 0 + t * 0 + dk D * dot q a b)); [ring|rewrite <- K; ring]. }
  apply zero_of_mul in K2; [|exact Hk]. destruct (mul_zero _ _ K2) as [e|e].
  - left. rewrite e in tx, ty. destruct q as [q1 q0], a as [a1 a0]; cbn [px py] in *. f_equal; [rewrite tx|rewrite ty]; ring.
  - destruct (mul_zero _ _ e) as [e'|e'].
    + right. assert (t = 1) as -> by ql. destruct q as [q1 q0], b as [b1 b0]; cbn [px py] in *. f_equal; [rewrite tx|rewrite ty]; ring.
    + exfalso. apply N, d2_zero, e'.
Qed.
(** Beyond the vertex [v] of a triangle one is outside the circle. *)
Lemma cone_out v a r x : 0 < cross v a r -> cross v x r <= 0 -> cross v a x <= 0 -> x <> v -> inc v a r x < 0.
Proof.
  intros P B G N. set (D := cross v a r) in *. set (be := cross v x r) in *. set (ga := cross v a x) in *.
  assert (K : D * inc v a r x = - (D * D * d2 v x) + D * (be * d2 v a + ga * d2 v r)).
  { unfold D, be, ga, cross, inc, incircle, d2. ring. }
  apply (neg_of_mul D); [exact P|]. rewrite K.
  pose proof (mul_pos D D P P) as D2. pose proof (mul_pos _ _ D2 (d2_pos v x ltac:(congruence))) as M1.
  pose proof (mul_nonneg (- be) (d2 v a) ltac:(ql) (d2_nonneg _ _)) as M2.
  pose proof (mul_nonneg (- ga) (d2 v r) ltac:(ql) (d2_nonneg _ _)) as M3.
  pose proof (mul_nonneg D (- be * d2 v a + - ga * d2 v r) ltac:(ql) ltac:(ql)) as M4.
  replace (D * (be * d2 v a + ga * d2 v r)) with (- (D * (- be * d2 v a + - ga * d2 v r))) by ring. ql.
Qed.
(** Chords of a disc on both sides of [v a]. *)
Lemma disc_cross D v a r x : 0 < dk D -> pw D v = 0 -> pw D a = 0 -> pw D r = 0 -> pw D x = 0 ->
  0 < cross v a r -> cross v a x < 0 -> crossing v a r x.
Proof.
  intros Hk Pv Pa Pr Px C1 C2.
  assert (I : inc v a r x = 0).
  { pose proof (pw_bary D v a r x) as K. rewrite Pv, Pa, Pr, Px in K.
    apply (zero_of_mul (dk D)); [exact Hk|]. 
    replace (dk D * inc v a r x) with (cross x a r * 0 + cross v x r * 0 + cross v a x * 0 - cross v a r * 0 - (cross x a r * 0 + cross v x r * 0 + cross v a x * 0 - dk D * inc v a r x)) by ring.
    rewrite <- K. ring. }
  assert (x <> v) by (intros ->; rewrite cross_aba in C2; ql).
  assert (x <> a) by (intros ->; rewrite cross_abb in C2; ql).
  red. split; [assumption|]. split; [assumption|]. split.
  - destruct (Qclt_le_dec (cross r x v) 0) as [h|h]; [assumption|exfalso].
    assert (inc v a r x < 0); [|ql]. apply cone_out; auto; [|ql].
    replace (cross v x r) with (- cross r x v) by (unfold cross; ring). ql.
  - destruct (Qclt_le_dec 0 (cross r x a)) as [h|h]; [assumption|exfalso].
    assert (inc a r v x < 0); [|rewrite inc_rot in H1; ql]. apply cone_out; auto.
    + rewrite cross_rot. exact C1.
    + rewrite cross_rot. ql.
    + rewrite <- (cross_rot a r x). exact h.
Qed.
