(** * GenFilesSamples: a request for the examples about header files, and checks of its properties by computation. *)
From Coq Require Import String.
From Verif Require Import Base Schema Printf Generator GenMembers GenFiles SpecFiles GenOrder GenFilesProps.
From Coq Require Import List ZArith Bool ZifyBool Lia.

Definition src (n : string) (imports : list string) : srcfile := {| s_name := chars n; s_imports := map chars imports |}.

Fixpoint distinctb (l : list text) : bool := match l with [] => true | n :: l' => negb (mem n l') && distinctb l' end.
Fixpoint orderedb (seen : list text) (l : list srcfile) : bool :=
  match l with [] => true | f :: l' => forallb (fun n => mem n seen) (s_imports f) && orderedb (s_name f :: seen) l' end.
Definition well_namedb (n : text) : bool :=
  let stem := firstn (length n - 6) n in
  text_eqb (skipn (length n - 6) n) (chars ".proto") && match stem with c :: _ => letter c | [] => false end
    && forallb (fun x => letter x || digit x || (x =? 47)) stem && negb (last stem 0 =? 47).
Definition plain_nameb (n : text) : bool := negb (contains options_name n) && negb (contains descriptor_name n) && well_namedb n.
Definition guardsb (l : list text) : bool := forallb (fun a => forallb (fun b => negb (text_eqb (upper (slashes a)) (upper (slashes b))) || text_eqb a b) l) l.
Definition namesakeb (l : list srcfile) : bool :=
  forallb (fun f => forallb (fun n => match folder (s_name f) with [] => true | d => negb (mem (d ++ n) (names l)) end) (s_imports f)) l.
Definition usualb (request : list srcfile) : bool :=
  distinctb (names request) && orderedb [] request
    && forallb (fun f => text_eqb (s_name f) options_name || text_eqb (s_name f) descriptor_name || plain_nameb (s_name f)) request
    && forallb (fun f => negb (mem descriptor_name (s_imports f))) (user_files request).

Lemma mem_in n l : mem n l = true <-> In n l.
Proof. unfold mem. rewrite existsb_exists. split; [intros (x & Hx & E); apply text_eqb_eq in E; subst; exact Hx|intros H; exists n; split; [exact H|apply text_eqb_eq; reflexivity]]. Qed.
Lemma distinctb_ok l : distinctb l = true -> NoDup l.
Proof.
  induction l as [|n l IH]; [constructor|]. cbn [distinctb]. intros H. apply andb_true_iff in H. destruct H as [A B]. constructor; [|apply IH; exact B].
  intros K. apply mem_in in K. rewrite K in A. discriminate.
Qed.
Lemma orderedb_ok l : distinctb (names l) = true -> orderedb [] l = true -> ordered_request l.
Proof.
  intros Hd Ho. split; [apply distinctb_ok; exact Hd|].
  assert (H : forall l seen l1 f l2, orderedb seen l = true -> l = l1 ++ f :: l2 -> incl (s_imports f) (seen ++ names l1)).
  { clear. induction l as [|x l IH]; intros seen l1 f l2 H E; [destruct l1; discriminate|]. cbn [orderedb] in H. apply andb_true_iff in H. destruct H as [A B].
    destruct l1 as [|y l1]; cbn [app] in E; injection E as Ey E.
    - subst x. intros n Hn. rewrite forallb_forall in A. apply A, mem_in in Hn. apply in_or_app. left. exact Hn.
    - subst x. intros n Hn. specialize (IH _ l1 f l2 B E n Hn). cbn [names map]. apply in_app_or in IH. apply in_or_app. cbn [In] in *. tauto. }
  intros l1 f l2 E. apply (H l [] l1 f l2 Ho E).
Qed.
Lemma well_namedb_ok n : well_namedb n = true -> well_named n.
Proof.
  unfold well_namedb. intros H. apply andb_true_iff in H. destruct H as [H D]. apply andb_true_iff in H. destruct H as [H C]. apply andb_true_iff in H. destruct H as [A B].
  apply text_eqb_eq in A. pose proof (firstn_skipn (length n - 6) n) as E. rewrite A in E. destruct (firstn (length n - 6) n) as [|c r] eqn:Es; [discriminate|].
  exists c, r. split; [symmetry; exact E|]. split; [exact B|]. cbn [forallb] in C. apply andb_true_iff in C. destruct C as [_ C]. rewrite forallb_forall in C. split; [|lia].
  rewrite Forall_forall. intros x Hx. specialize (C x Hx). apply orb_true_iff in C. destruct C as [C|C]; [apply orb_true_iff in C; tauto|right; right; lia].
Qed.
Lemma plain_nameb_ok n : plain_nameb n = true -> plain_name n.
Proof.
  unfold plain_nameb. intros H. apply andb_true_iff in H. destruct H as [H C]. apply andb_true_iff in H. destruct H as [A B]. apply negb_true_iff in A, B.
  split; [apply contains_not; exact A|]. split; [apply contains_not; exact B|]. apply well_namedb_ok. exact C.
Qed.
Lemma guardsb_ok l : guardsb (names l) = true -> distinct_guards l.
Proof.
  intros H a b Ha Hb E. unfold guardsb in H. rewrite forallb_forall in H. specialize (H a Ha). rewrite forallb_forall in H. specialize (H b Hb).
  apply orb_true_iff in H. destruct H as [H|H]; [|apply text_eqb_eq; exact H]. apply same_upper, text_eqb_eq in E. rewrite E in H. discriminate.
Qed.
Lemma namesakeb_ok l : namesakeb l = true -> no_namesake l.
Proof.
  intros H f n Hf Hn Hd K. unfold namesakeb in H. rewrite forallb_forall in H. specialize (H f Hf). rewrite forallb_forall in H. specialize (H n Hn).
  destruct (folder (s_name f)); [congruence|]. apply mem_in in K. rewrite K in H. discriminate.
Qed.
Lemma usualb_ok request : usualb request = true -> ordered_request request
  /\ (forall f, In f request -> s_name f = options_name \/ s_name f = descriptor_name \/ plain_name (s_name f))
  /\ (forall f, In f (user_files request) -> ~ In descriptor_name (s_imports f)).
Proof.
  unfold usualb. intros H. apply andb_true_iff in H. destruct H as [H D]. apply andb_true_iff in H. destruct H as [H C]. apply andb_true_iff in H. destruct H as [A B].
  split; [apply orderedb_ok; assumption|]. rewrite forallb_forall in C, D. split.
  - intros f Hf. specialize (C f Hf). apply orb_true_iff in C. destruct C as [C|C]; [apply orb_true_iff in C; rewrite !text_eqb_eq in C; tauto|].
    right. right. apply plain_nameb_ok. exact C.
  - intros f Hf K. specialize (D f Hf). apply mem_in in K. rewrite K in D. discriminate.
Qed.
Lemma well_namedb_all l : forallb well_namedb l = true -> Forall well_named l.
Proof. intros H. rewrite forallb_forall in H. rewrite Forall_forall. intros n Hn. apply well_namedb_ok. apply H. exact Hn. Qed.

Definition sample_request : list srcfile :=
  [src "google/protobuf/descriptor.proto" []; src "embedded_proto_options.proto" ["google/protobuf/descriptor.proto"];
   src "base/types.proto" ["embedded_proto_options.proto"]; src "base/units.proto" [];
   src "base/msg.proto" ["base/types.proto"; "base/units.proto"; "embedded_proto_options.proto"];
   src "other.proto" ["base/units.proto"]; src "app.proto" ["base/msg.proto"; "base/types.proto"]]%string.
