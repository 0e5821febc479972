(** Proofs about load_h5_data and create_fixed_h5. *)
From Coq Require Import Arith ZArith Bool Reals String List Lia.
From Verif Require Import Num NdArray ModelIO IOFacts ModelRun ModelRunHW SpecRunHW.
Import ListNotations.
Local Open Scope list_scope.
Local Open Scope string_scope.

Section Load.
Context {V T : Type}.
Implicit Types (f : h5 V T) (data : list (string * dataset V T)).

Lemma load_rows_ok f l : forall data, (forall k, In k l -> exists v, dget (dsets f) k = Some v) ->
  exists d, load_rows f l data = Ok d /\ forall k, dget d k = if in_dec string_dec k l then dget (dsets f) k else dget data k.
Proof.
  induction l as [|q l IH]; intros data H; cbn [load_rows].
  - exists data. split; reflexivity.
  - destruct (H q (or_introl eq_refl)) as [v Hv]. unfold dlook. rewrite Hv. cbn [bind].
    destruct (IH (dset_ data q v)) as (d & E & G); [intros k K; apply H; now right|]. exists d. split; [exact E|].
    intros k. rewrite G. destruct (in_dec string_dec k l) as [I|I], (in_dec string_dec k (q :: l)) as [J|J]; try reflexivity.
    + exfalso. apply J. now right.
    + destruct J as [<-|J]; [|contradiction]. now rewrite dget_dset_same.
    + rewrite dget_dset_other; [reflexivity|]. intros ->. apply J. now left.
Qed.
Lemma load_rows_bad f l : forall data, (exists k, In k l /\ dget (dsets f) k = None) -> load_rows f l data = Exn KeyError.
Proof.
  induction l as [|q l IH]; intros data (k & K & Hk); [contradiction|]. cbn [load_rows]. unfold dlook.
  destruct (dget (dsets f) q) as [v|] eqn:E; [|reflexivity]. cbn [bind]. apply IH. exists k. split; [|exact Hk].
  destruct K as [->|K]; [congruence|exact K].
Qed.

Lemma load_ok f l : (forall k, In k l -> exists v, dget (dsets f) k = Some v) ->
  exists d, load_h5_data (Some f) l = Ok (d, attrs f) /\
    (forall k, In k l -> dget d k = dget (dsets f) k) /\ (forall k, ~ In k l -> dget d k = None).
Proof.
  intros H. destruct (load_rows_ok f l [] H) as (d & E & G). exists d. unfold load_h5_data. rewrite E.
  split; [reflexivity|]. split; intros k K; rewrite G; destruct (in_dec string_dec k l); tauto || reflexivity.
Qed.
Lemma load_none l : @load_h5_data V T None l = Exn FileNotFoundError.
Proof. reflexivity. Qed.
Lemma load_bad f l k : In k l -> dget (dsets f) k = None -> load_h5_data (Some f) l = Exn KeyError.
Proof. intros H K. unfold load_h5_data. rewrite load_rows_bad; [reflexivity|]. now exists k. Qed.

Variable zl : string -> row V T.
Variable zeroV : V.
Variable time : nat.
Let z : dataset V T := Rows (repeat (RFrame zeroV) time).

(** creating datasets one after another *)
Definition creates (l : list string) := @iseq V T (map (fun n => iop zl (CreateDs n z)) l).

Lemma creates_S q l f : dget (dsets f) q = None ->
  creates (q :: l) (Some f) = let '((tr, fs), r) := creates l (Some (mkH5 (dset_ (dsets f) q z) (attrs f))) in ((CreateDs q z :: tr, fs), r).
Proof.
  intros E. unfold creates. cbn [map iseq]. unfold ibind at 1. unfold iop at 1. cbn [exec1]. unfold dhas. rewrite E.
  cbv beta iota. destruct (iseq _ _) as [[tr fs] r]. reflexivity.
Qed.
Lemma creates_ok l : forall f, NoDup l -> (forall k, In k l -> dget (dsets f) k = None) ->
  exists g, disk_of (creates l) (Some f) = Some g /\ result_of (creates l) (Some f) = Ok tt /\ attrs g = attrs f /\
    forall k, dget (dsets g) k = if in_dec string_dec k l then Some z else dget (dsets f) k.
Proof.
  induction l as [|q l IH]; intros f ND H.
  - exists f. repeat split.
  - inversion ND as [|? ? N1 N2]; subst. unfold disk_of, result_of. rewrite (creates_S q l f) by (apply H; now left).
    destruct (IH (mkH5 (dset_ (dsets f) q z) (attrs f)) N2) as (g & D & R & A & G).
    { intros k K. cbn [dsets]. rewrite dget_dset_other; [apply H; now right|]. now intros ->. }
    exists g. unfold disk_of, result_of in D, R. destruct (creates l (Some (mkH5 (dset_ (dsets f) q z) (attrs f)))) as [[tr fs] r].
    cbn [fst snd dsets attrs] in *. split; [exact D|]. split; [exact R|]. split; [exact A|]. intros k. rewrite G.
    destruct (in_dec string_dec k l) as [I|I], (in_dec string_dec k (q :: l)) as [J|J]; try reflexivity.
    + exfalso. apply J. now right.
    + destruct J as [<-|J]; [|contradiction]. now rewrite dget_dset_same.
    + rewrite dget_dset_other; [reflexivity|]. intros ->. apply J. now left.
Qed.
Lemma creates_bad l : forall f, (exists k, In k l /\ dget (dsets f) k <> None) \/ ~ NoDup l ->
  result_of (creates l) (Some f) = Exn ValueError /\
  exists g, disk_of (creates l) (Some f) = Some g /\ attrs g = attrs f /\
    forall k d, dget (dsets g) k = Some d -> dget (dsets f) k = Some d \/ d = z /\ In k l.
Proof.
  induction l as [|q l IH]; intros f H.
  - exfalso. destruct H as [(k & [] & _)|H]. apply H. constructor.
  - unfold disk_of, result_of. destruct (dhas (dsets f) q) eqn:E.
    { unfold creates. cbn [map iseq]. unfold ibind at 1 2. unfold iop at 1 3. cbn [exec1]. rewrite E. cbn. split; [reflexivity|]. exists f. repeat split; try reflexivity. intros k d D. now left. }
    unfold dhas in E. destruct (dget (dsets f) q) eqn:E'; [discriminate|]. rewrite (creates_S q l f E').
    destruct (IH (mkH5 (dset_ (dsets f) q z) (attrs f))) as (R & g & D & A & G).
    { destruct H as [(k & K & Hk)|H].
      - left. exists k. destruct K as [->|K]; [congruence|]. split; [exact K|]. cbn [dsets]. rewrite dget_dset. destruct (String.eqb k q); [discriminate|exact Hk].
      - destruct (in_dec string_dec q l) as [I|I].
        + left. exists q. split; [exact I|]. cbn [dsets]. now rewrite dget_dset_same.
        + right. intros N. apply H. now constructor. }
    unfold disk_of, result_of in D, R. destruct (creates l (Some (mkH5 (dset_ (dsets f) q z) (attrs f)))) as [[tr fs] r].
    cbn [fst snd dsets attrs] in *. split; [exact R|]. exists g. repeat split; try assumption. intros k d Hd.
    destruct (G k d Hd) as [G'|[G' G'']]; [|right; split; [exact G'|now right]].
    rewrite dget_dset in G'. destruct (String.eqb_spec k q) as [E0|_]; [|now left]. right. split; [congruence|now left].
Qed.

Lemma fixed_ok l fs : NoDup l -> exists g,
  disk_of (create_fixed_h5 zl zeroV time l) fs = Some g /\ result_of (create_fixed_h5 zl zeroV time l) fs = Ok tt /\ attrs g = [] /\
  forall k, dget (dsets g) k = if in_dec string_dec k l then Some (Rows (repeat (RFrame zeroV) time)) else None.
Proof.
  intros ND. destruct (creates_ok l (mkH5 [] []) ND) as (g & D & R & A & G); [reflexivity|]. exists g.
  unfold create_fixed_h5, disk_of, result_of, ibind at 1 2, iop at 1 3. cbn [exec1].
  fold z. fold (creates l). unfold disk_of, result_of in D, R. destruct (creates l (Some (mkH5 [] []))) as [[tr fs'] r]. cbn [fst snd dsets attrs] in *.
  repeat split; assumption.
Qed.
Lemma fixed_bad l fs : ~ NoDup l ->
  result_of (create_fixed_h5 zl zeroV time l) fs = Exn ValueError /\ exists g,
  disk_of (create_fixed_h5 zl zeroV time l) fs = Some g /\ attrs g = [] /\
  forall k d, dget (dsets g) k = Some d -> d = Rows (repeat (RFrame zeroV) time) /\ In k l.
Proof.
  intros ND. destruct (creates_bad l (mkH5 [] []) (or_intror ND)) as (R & g & D & A & G).
  unfold create_fixed_h5, disk_of, result_of, ibind at 1 2, iop at 1 3. cbn [exec1].
  fold z. fold (creates l). unfold disk_of, result_of in D, R. destruct (creates l (Some (mkH5 [] []))) as [[tr fs'] r]. cbn [fst snd dsets attrs] in *.
  split; [exact R|]. exists g. split; [exact D|]. split; [exact A|]. intros k d Hd. destruct (G k d Hd) as [K|K]; [discriminate|exact K].
Qed.
Lemma fixed_load l fs : NoDup l -> exists d,
  load_h5_data (disk_of (create_fixed_h5 zl zeroV time l) fs) l = Ok (d, []) /\
  forall k, In k l -> dget d k = Some (Rows (repeat (RFrame zeroV) time)).
Proof.
  intros ND. destruct (fixed_ok l fs ND) as (g & D & _ & A & G). rewrite D.
  destruct (load_ok g l) as (d & E & H & _).
  { intros k K. rewrite G. destruct (in_dec string_dec k l); [now eexists|contradiction]. }
  exists d. rewrite E, A. split; [reflexivity|]. intros k K. rewrite (H k K), G. destruct (in_dec string_dec k l); [reflexivity|contradiction].
Qed.
End Load.

Lemma load_frames : forall rnd dsf ys xs frames (g : h5 (arr R) R), file_frames rnd dsf ys xs frames g ->
  let col (fld : frame -> nat -> nat -> R) := Rows (map (fun x => RFrame (grid ys xs (fun i j => rnd (dsf (fld x) i j)))) frames) in
  exists d, load_h5_data (Some g) ["density"; "omega"; "phi"] = Ok (d, attrs g) /\
    dget d "density" = Some (col f_n) /\ dget d "omega" = Some (col f_o) /\ dget d "phi" = Some (col f_p).
Proof.
  intros rnd dsf ys xs frames g (Hn & Ho & Hp & _) col. destruct (load_ok g ["density"; "omega"; "phi"]) as (d & E & G & _).
  - intros k K. cbn in K. destruct K as [<-|[<-|[<-|[]]]]; eexists; eassumption.
  - exists d. split; [exact E|]. rewrite !G by (cbn; tauto). repeat split; assumption.
Qed.
