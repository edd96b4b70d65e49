(** Integer coordinates and their decimal notation: a computable instance for the SVG examples. *)
From Coq Require Import List ZArith Bool String Ascii Decimal DecimalString DecimalZ DecimalFacts Lia.
From Verif Require Import Py SpecSvg.
Import ListNotations.
Local Open Scope Z_scope.

#[global] Instance ZNum : NumOps Z := {
  nofZ := fun z => z; nadd := Z.add; nsub := Z.sub; nmul := Z.mul; nquot := Z.quot; nopp := Z.opp; nabs := Z.abs;
  nleb := Z.leb; nltb := Z.ltb; neqb := Z.eqb
}.
Definition showZ (z : Z) : string := NilZero.string_of_int (Z.to_int z).
Definition readZ (s : string) : option Z := option_map Z.of_int (NilZero.int_of_string s).

Lemma uint_chars (d : uint) c : In c (list_ascii_of_string (NilEmpty.string_of_uint d)) -> number_char c = true.
Proof. induction d; cbn [NilEmpty.string_of_uint list_ascii_of_string]; intros H; [destruct H|..]; destruct H as [<-|H]; auto. Qed.
Lemma zero_chars (d : uint) c : In c (list_ascii_of_string (NilZero.string_of_uint d)) -> number_char c = true.
Proof.
  destruct d; try exact (uint_chars _ c). cbn. intros [<-|[]]. reflexivity.
Qed.
Lemma to_int_norm z : Z.to_int z <> Pos Nil /\ Z.to_int z <> Neg Nil.
Proof. destruct z as [|p|p]; cbn; split; try discriminate; intros E; injection E as E; exact (DecimalPos.Unsigned.to_uint_nonnil p E). Qed.
Lemma read_show z : readZ (showZ z) = Some z.
Proof. unfold readZ, showZ. destruct (to_int_norm z). rewrite NilZero.isi by assumption. cbn [option_map]. now rewrite DecimalZ.of_to. Qed.
Theorem Z_printer : printer readZ (fun _ => True) showZ.
Proof.
  constructor.
  - intros a b _ _. apply Z.eqb_eq.
  - intros x _ E. pose proof (read_show x) as R. rewrite E in R. discriminate.
  - intros x c _. unfold showZ, NilZero.string_of_int. destruct (Z.to_int x) as [d|d]; [apply zero_chars|]. cbn [list_ascii_of_string]. intros [<-|H]; [reflexivity|]. exact (zero_chars d c H).
  - intros x _. apply read_show.
Qed.
