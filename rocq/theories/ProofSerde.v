(** Reading back what was written. *)
From Coq Require Import String List Arith Bool Lia.
From Verif Require Import Num ModelMath ModelSeg ModelPline ModelView ModelIntersects ModelBoolean ModelSerde.
From Verif Require Import SpecSerde.
Import ListNotations.

Section ProofSerde.
Context {T : Type}.
Notation stream := (list (tok T)).
Notation reader A := (stream -> option (A * stream)).

Definition reads {A} (rd : reader A) (s : stream) (x : A) : Prop := forall rest, rd (s ++ rest) = Some (x, rest).

Lemma reads_bind {A B} (m : reader A) (f : A -> reader B) s1 s2 a b :
  reads m s1 a -> reads (f a) s2 b -> reads (bind_r m f) (s1 ++ s2) b.
Proof. intros H1 H2 rest. unfold bind_r. rewrite <- app_assoc, H1. apply H2. Qed.

Lemma reads_ret {A} (a : A) : reads (ret_r a) [] a.
Proof. intros rest. reflexivity. Qed.
Lemma reads_num (x : T) : reads de_num (ser_num x) x.
Proof. intros rest. reflexivity. Qed.
Lemma reads_nat n : reads de_nat (ser_nat n : stream) n.
Proof. intros rest. reflexivity. Qed.
Lemma reads_bool b : reads de_bool (ser_bool b : stream) b.
Proof. intros rest. reflexivity. Qed.
Lemma reads_key k : reads (de_key k) ([TKey k] : stream) tt.
Proof. intros rest. cbn. now rewrite String.eqb_refl. Qed.

Definition open_toks (f : format) (n : nat) : stream :=
  match f with Delimited => [TOpen] | Prefixed => [TCount n] | Bare => [] end.
Definition close_toks (f : format) : stream := match f with Delimited => [TClose] | _ => [] end.
Definition key_toks (f : format) (k : string) : stream := match f with Bare => [] | _ => [TKey k] end.

Lemma reads_open f n : reads (de_open f n) (open_toks f n) tt.
Proof. intros rest. destruct f; cbn; try rewrite Nat.eqb_refl; reflexivity. Qed.
Lemma reads_close f : reads (de_close f) (close_toks f) tt.
Proof. intros rest. destruct f; reflexivity. Qed.
Lemma reads_field {A} f k (rd : reader A) s x : reads rd s x -> reads (de_field f k rd) (key_toks f k ++ s) x.
Proof.
  intros H. destruct f; cbn [key_toks de_field]; [..|exact H].
  1, 2: apply reads_bind with (a := tt); [apply reads_key|exact H].
Qed.

Lemma ser_tuple_eq f n els : ser_tuple f n els = open_toks f n ++ concat els ++ close_toks f.
Proof. destruct f; cbn; now rewrite ?app_nil_r. Qed.
Lemma ser_struct_eq f n fields :
  ser_struct f n fields = open_toks f n ++ concat (map (fun kv => key_toks f (fst kv) ++ snd kv) fields) ++ close_toks f.
Proof.
  destruct f; unfold ser_struct; [rewrite ser_tuple_eq; reflexivity..|cbn [open_toks close_toks]].
  rewrite app_nil_r. reflexivity.
Qed.

Lemma de_count_reads {A} (rd : reader A) (w : A -> stream) l :
  (forall x, In x l -> reads rd (w x) x) -> reads (de_count (length l) rd) (concat (map w l)) l.
Proof.
  induction l as [|x l IH]; intros H; [apply reads_ret|].
  cbn [length de_count map concat]. apply reads_bind with (a := x); [apply H; now left|].
  rewrite <- (app_nil_r (concat (map w l))). apply reads_bind with (a := l); [|apply reads_ret].
  apply IH. intros y Hy. apply H. now right.
Qed.

Lemma de_until_reads {A} (rd : reader A) (w : A -> stream) l : 
  (forall x, In x l -> reads rd (w x) x) -> (forall x, In x l -> exists t r, w x = t :: r /\ t <> TClose) ->
  forall fuel, length l <= fuel -> reads (de_until fuel rd) (concat (map w l) ++ [TClose]) l.
Proof.
  induction l as [|x l IH]; intros H O fuel L rest.
  - destruct fuel; reflexivity.
  - cbn [length] in L. destruct fuel as [|m]; [lia|].
    destruct (O x (or_introl eq_refl)) as (t & r & E & NE).
    assert (R : reads (bind_r rd (fun y => bind_r (de_until m rd) (fun k => ret_r (y :: k))))
                  (concat (map w (x :: l)) ++ [TClose]) (x :: l)).
    { cbn [map concat]. rewrite <- app_assoc. apply reads_bind with (a := x); [apply H; now left|].
      rewrite <- (app_nil_r (concat (map w l) ++ [TClose])). apply reads_bind with (a := l); [|apply reads_ret].
      apply IH; [intros y Hy; apply H; now right|intros y Hy; apply O; now right|lia]. }
    specialize (R rest). cbn [map concat] in *. rewrite E in *. cbn [app] in *.
    destruct t; try exact R. now elim NE.
Qed.

Lemma concat_length {A B} (w : A -> list B) l : (forall x, In x l -> w x <> []) ->
  length l <= length (concat (map w l)).
Proof.
  induction l as [|x l IH]; intros H; cbn; [lia|]. rewrite app_length.
  specialize (IH (fun y Hy => H y (or_intror Hy))). pose proof (H x (or_introl eq_refl)).
  destruct (w x); [contradiction|cbn; lia].
Qed.

Lemma reads_seq {A} f (rd : reader A) (w : A -> stream) l :
  (forall x, In x l -> reads rd (w x) x) ->
  (f = Delimited -> forall x, In x l -> exists t r, w x = t :: r /\ t <> TClose) ->
  reads (de_seq f rd) (ser_seq f (length l) (map w l)) l.
Proof.
  intros H O rest. destruct f; cbn.
  - specialize (O eq_refl). apply (de_until_reads rd w l H O). rewrite !app_length.
    assert (length l <= length (concat (map w l))).
    { apply concat_length. intros x Hx. destruct (O x Hx) as (t & r & -> & _). discriminate. }
    lia.
  - now apply de_count_reads.
  - now apply de_count_reads.
Qed.

Ltac step v := refine (reads_bind _ _ _ _ v _ _ _).

Theorem vertex_reads f (v : vertex T) : reads (de_vertex f) (ser_vertex f v) v.
Proof.
  unfold ser_vertex, de_vertex. rewrite ser_tuple_eq.
  step tt; [apply reads_open|]. cbn [concat]. rewrite <- !app_assoc. cbn [app].
  step (px v); [apply reads_num|]. step (py v); [apply reads_num|]. step (pbulge v); [apply reads_num|].
  rewrite <- (app_nil_r (close_toks f)). step tt; [apply reads_close|]. destruct v. apply reads_ret.
Qed.

Theorem vec2_reads f (v : vec2 T) : f <> Prefixed -> reads (de_vec2 f) (ser_vec2 f v) v.
Proof.
  intros NF. unfold ser_vec2, de_vec2. rewrite ser_tuple_eq.
  step tt; [destruct f; [intros r; reflexivity|now elim NF|intros r; reflexivity]|]. cbn [concat]. rewrite <- !app_assoc. cbn [app].
  step (vx v); [apply reads_num|]. step (vy v); [apply reads_num|].
  rewrite <- (app_nil_r (close_toks f)). step tt; [apply reads_close|]. destruct v. apply reads_ret.
Qed.

Theorem vec2_prefixed (v : vec2 T) rest : de_vec2 Prefixed (ser_vec2 Prefixed v ++ rest) = None.
Proof. reflexivity. Qed.

Ltac openstruct := rewrite ser_struct_eq; step tt; [apply reads_open|];
  cbn [map fst snd concat]; repeat rewrite <- app_assoc; cbn [app].
Ltac fstep k x := rewrite (app_assoc (key_toks _ k)); refine (reads_bind _ _ _ _ x _ _ _);
  [apply reads_field|].
Ltac closestruct := rewrite <- (app_nil_r (close_toks _)); step tt; [apply reads_close|].

Lemma vertexes_open f (l : list (vertex T)) : f = Delimited ->
  forall x, In x l -> exists t r, ser_vertex f x = t :: r /\ t <> TClose.
Proof. intros -> x _. do 2 eexists. split; [reflexivity|discriminate]. Qed.

Theorem pline_reads f (p : pline T) : reads (de_pline f) (ser_pline f p) p.
Proof.
  unfold ser_pline, de_pline. openstruct.
  fstep "vertexes"%string (vtx p).
  { apply reads_seq; [intros; apply vertex_reads|intros E; now apply vertexes_open]. }
  fstep "isClosed"%string (is_closed p); [apply reads_bool|]. closestruct. destruct p. apply reads_ret.
Qed.

Theorem view_data_reads f (d : view_data T) : f <> Prefixed -> reads (de_view_data f) (ser_view_data f d) d.
Proof.
  intros NF. unfold ser_view_data, de_view_data. openstruct.
  fstep "startIndex"%string (vd_start_index d); [apply reads_nat|].
  fstep "endIndexOffset"%string (vd_end_index_offset d); [apply reads_nat|].
  fstep "updatedStart"%string (vd_updated_start d); [apply vertex_reads|].
  fstep "updatedEndBulge"%string (vd_updated_end_bulge d); [apply reads_num|].
  fstep "endPoint"%string (vd_end_point d); [now apply vec2_reads|].
  fstep "invertedDirection"%string (vd_inverted d); [apply reads_bool|].
  closestruct. destruct d. apply reads_ret.
Qed.

Theorem boolean_slice_reads f (s : boolean_slice T) : f <> Prefixed ->
  reads (de_boolean_slice f) (ser_boolean_slice f s) s.
Proof.
  intros NF. unfold ser_boolean_slice, de_boolean_slice. openstruct.
  fstep "viewData"%string (bs_view s); [now apply view_data_reads|].
  fstep "sourceIsPline1"%string (bs_source_is_pline1 s); [apply reads_bool|].
  fstep "overlapping"%string (bs_overlapping s); [apply reads_bool|].
  closestruct. destruct s. apply reads_ret.
Qed.

Theorem result_pline_reads f (r : boolean_result_pline T) : f <> Prefixed ->
  reads (de_result_pline f) (ser_result_pline f r) r.
Proof.
  intros NF. unfold ser_result_pline, de_result_pline. openstruct.
  fstep "pline"%string (brp_pline r); [apply pline_reads|].
  fstep "subslices"%string (brp_subslices r).
  { apply reads_seq; [intros; now apply boolean_slice_reads|].
    intros -> x _. do 2 eexists. split; [reflexivity|discriminate]. }
  closestruct. destruct r. apply reads_ret.
Qed.

(** Every view, slice and result with a slice is unreadable where counts are stored. *)
Lemma bind_none {A B} (m : reader A) (f : A -> reader B) s1 rest :
  m (s1 ++ rest) = None -> bind_r m f (s1 ++ rest) = None.
Proof. intros E. unfold bind_r. now rewrite E. Qed.

Theorem view_data_prefixed (d : view_data T) rest : de_view_data Prefixed (ser_view_data Prefixed d ++ rest) = None.
Proof. destruct d. reflexivity. Qed.

(** What reads as a point or a vertex. *)
Theorem vec2_read_iff f s (v : vec2 T) rest : de_vec2 f s = Some (v, rest) <-> s = held f [vx v; vy v] ++ rest.
Proof.
  split.
  - unfold de_vec2, bind_r, de_open, de_num, de_close, ret_r. destruct f.
    + destruct s as [|[] [|[] [|[] [|[] s]]]]; try discriminate. now intros [= <- <-].
    + destruct s as [|[| |n| | | |] s]; try discriminate. destruct (Nat.eqb_spec n 2) as [->|]; [|discriminate]. destruct s as [|[] [|[] s]]; try discriminate. now intros [= <- <-].
    + destruct s as [|[] [|[] s]]; try discriminate. now intros [= <- <-].
  - intros ->. destruct v, f; reflexivity.
Qed.

Theorem vertex_read_iff f s (v : vertex T) rest : de_vertex f s = Some (v, rest) <-> s = held f [px v; py v; pbulge v] ++ rest.
Proof.
  split.
  - unfold de_vertex, bind_r, de_open, de_num, de_close, ret_r. destruct f.
    + destruct s as [|[] [|[] [|[] [|[] [|[] s]]]]]; try discriminate. now intros [= <- <-].
    + destruct s as [|[| |n| | | |] s]; try discriminate. destruct (Nat.eqb_spec n 3) as [->|]; [|discriminate]. destruct s as [|[] [|[] [|[] s]]]; try discriminate. now intros [= <- <-].
    + destruct s as [|[] [|[] [|[] s]]]; try discriminate. now intros [= <- <-].
  - intros ->. destruct v, f; reflexivity.
Qed.

End ProofSerde.
