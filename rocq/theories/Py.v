(** Python basics used by the model: exceptions as values, ranges, list
    indexing and slicing.  Models the Python language, not a file of /repo. *)
From Coq Require Export List ZArith Lia Bool.
From Coq Require FinFun.
Export ListNotations.
Open Scope Z_scope.

(** The exception classes that the modelled code raises or lets through. *)
Inductive exn :=
| IndexError | ValueError | LookupError | RuntimeError | TypeError
| ZeroDivisionError | AssertionError | KeyError | OverflowError
| NotImplementedError | StructError | UnicodeEncodeError
| InvalidParameterError       (* lsst.pex.exceptions, raised by SpherePoint *)
| WcsError                    (* any other exception raised inside SkyWcs *)
| ConflictingDefinitionError  (* daf_butler *)
| ButlerFailure.              (* any injected failure of a butler operation *)

(** Result of a Python call: a value or a raised exception. *)
Inductive res (A : Type) :=
| Ok (a : A)
| Raise (e : exn).
Arguments Ok {A} a.
Arguments Raise {A} e.

Definition bind {A B} (m : res A) (f : A -> res B) : res B :=
  match m with Ok a => f a | Raise e => Raise e end.
Notation "x <- m ;; k" := (bind m (fun x => k))
  (at level 61, m at next level, right associativity).

(** [for x in l: acc.append(f x)], stopping at the first exception. *)
Fixpoint mapM {A B} (f : A -> res B) (l : list A) : res (list B) :=
  match l with
  | [] => Ok []
  | x :: xs => y <- f x ;; ys <- mapM f xs ;; Ok (y :: ys)
  end.

(** [range(a, b)]. *)
Definition zrange (a b : Z) : list Z :=
  map (fun k => a + Z.of_nat k) (seq 0 (Z.to_nat (b - a))).

(** [lst[i]] for a Python list: negative indices count from the end, anything
    else out of range raises IndexError. *)
Definition py_nth {A} (l : list A) (i : Z) : res A :=
  let n := Z.of_nat (length l) in
  let j := if i <? 0 then i + n else i in
  if (0 <=? j) && (j <? n) then
    match nth_error l (Z.to_nat j) with Some a => Ok a | None => Raise IndexError end
  else Raise IndexError.

(** [lst[:k]] for [k >= 0] (the only case used). *)
Definition py_prefix {A} (l : list A) (k : Z) : list A := firstn (Z.to_nat k) l.

Definition zsum (l : list Z) : Z := fold_right Z.add 0 l.

(** A 2-vector of ints: [Index2D], [Point2I] and [Extent2I] all appear as pairs. *)
Definition pair2 : Type := Z * Z.

(** The ways an index argument can be given (patchInfo.py:230-236,
    tractBuilder.py:227-233): an [Index2D], a number, an iterable, or
    something else.  Numbers are ints (floats are not modelled). *)
Inductive pyindex :=
| IxIndex2D (x y : Z)
| IxNum (n : Z)
| IxSeq (l : list Z)
| IxOther.

(** [Index2D( *index)]: a NamedTuple of two fields; wrong arity or a
    non-iterable raises TypeError (detail/utils.py, class Index2D). *)
Definition index2D_of_star (ix : pyindex) : res pair2 :=
  match ix with
  | IxIndex2D x y => Ok (x, y)
  | IxSeq [x; y] => Ok (x, y)
  | IxSeq _ => Raise TypeError
  | IxNum _ => Raise TypeError
  | IxOther => Raise TypeError
  end.

(** ** Lemmas *)
Lemma in_zrange a b x : In x (zrange a b) <-> a <= x < b.
Proof.
  unfold zrange. rewrite in_map_iff. split.
  - intros (k & <- & Hk). apply in_seq in Hk. lia.
  - intros H. exists (Z.to_nat (x - a)). rewrite in_seq. lia.
Qed.

Lemma zrange_length a b : length (zrange a b) = Z.to_nat (b - a).
Proof. unfold zrange. now rewrite map_length, seq_length. Qed.

Lemma zrange_nth_error a b k :
  (k < Z.to_nat (b - a))%nat -> nth_error (zrange a b) k = Some (a + Z.of_nat k).
Proof.
  intros H. unfold zrange.
  assert (E : nth_error (seq 0 (Z.to_nat (b - a))) k = Some k).
  { rewrite (nth_error_nth' _ 0%nat) by (rewrite seq_length; exact H).
    now rewrite seq_nth by exact H. }
  apply (map_nth_error (fun k => a + Z.of_nat k)) in E. exact E.
Qed.

Lemma zrange_NoDup a b : NoDup (zrange a b).
Proof.
  unfold zrange. apply FinFun.Injective_map_NoDup; [|apply seq_NoDup].
  intros x y; lia.
Qed.

Lemma mapM_Ok {A B} (f : A -> res B) (g : A -> B) l :
  (forall x, In x l -> f x = Ok (g x)) -> mapM f l = Ok (map g l).
Proof.
  induction l as [|x xs IH]; intros H; cbn; [reflexivity|].
  rewrite H by now left. cbn. rewrite IH by (intros; apply H; now right). reflexivity.
Qed.

Lemma mapM_In {A B} (f : A -> res B) l ys y :
  mapM f l = Ok ys -> In y ys -> exists x, In x l /\ f x = Ok y.
Proof.
  revert ys; induction l as [|x xs IH]; intros ys; cbn.
  - intros [= <-] [].
  - destruct (f x) as [b|e] eqn:E; cbn; [|discriminate].
    destruct (mapM f xs) as [bs|e] eqn:E2; cbn; [|discriminate].
    intros [= <-] [<-|Hin].
    + exists x; auto.
    + destruct (IH bs eq_refl Hin) as (x' & ? & ?). exists x'; auto.
Qed.

Lemma py_nth_in {A} (l : list A) i a :
  0 <= i -> nth_error l (Z.to_nat i) = Some a -> py_nth l i = Ok a.
Proof.
  intros Hi H. unfold py_nth.
  assert (Hl : (Z.to_nat i < length l)%nat) by (apply nth_error_Some; congruence).
  destruct (Z.ltb_spec i 0); [lia|].
  destruct (Z.leb_spec 0 i); [|lia]. destruct (Z.ltb_spec i (Z.of_nat (length l))); [|lia].
  cbn. now rewrite H.
Qed.

Lemma py_nth_ge {A} (l : list A) i :
  Z.of_nat (length l) <= i -> py_nth l i = Raise IndexError.
Proof.
  intros H. unfold py_nth.
  destruct (Z.ltb_spec i 0); [lia|].
  destruct (Z.ltb_spec i (Z.of_nat (length l))); [lia|]. now rewrite andb_false_r.
Qed.
