(** Decoding of arbitrary bytes: the relations of SpecRead.v cover every byte string. *)
From Verif Require Import Base Buffers Wire Schema Fields Message Spec Contracts BitLemmas
  ReadProofs ScalarProofs BufferProofs Struct SerProofs Tables DecodeProofs TidyProofs SpecRead ReadAny.
From Coq Require Import ZifyBool ZifyNat ZifyN.
Ltac Zify.zify_post_hook ::= Z.div_mod_to_equations.

(** A reader over a list of bytes. *)
Definition lops : rops (list Z) := {|
  r_get_size := @zlen Z;
  r_get_max_size := @zlen Z;
  r_peek := fun s => Done (match s with [] => None | b :: _ => Some b end);
  r_advance := fun s => Done (match s with [] => (false, []) | _ :: l => (true, l) end);
  r_advance_n := fun s n => Done (true, skipn (Z.to_nat n) s);
  r_pop := fun s => Done (match s with [] => (None, []) | b :: l => (Some b, l) end)
|}.
Definition lrel (s l : list Z) : Prop := s = l /\ Forall is_byte l.

Lemma lops_ok : reader_ok lops lrel.
Proof.
  constructor; cbn [lops r_get_size r_peek r_advance r_advance_n r_pop]; unfold lrel.
  - tauto.
  - intros s l (-> & _). lia.
  - intros s (-> & _). exists []. auto.
  - intros s b l (-> & H). inversion H; subst. exists l. auto.
  - intros s (-> & _). reflexivity.
  - intros s b l (-> & _). reflexivity.
  - intros s (-> & _). exists []. auto.
  - intros s b l (-> & H). inversion H; subst. exists l. auto.
  - intros s l n (-> & H) Hn. exists true, (skipn (Z.to_nat n) l). split; [reflexivity|]. split; [|auto]. split; [reflexivity|].
    apply Forall_forall. intros x Hx. eapply Forall_forall in H; [exact H|]. rewrite <- (firstn_skipn (Z.to_nat n) l), in_app_iff. auto.
Qed.

Lemma lops_bounded : reader_bounded lops lrel.
Proof.
  constructor; cbn [lops r_get_size r_advance_n]; unfold lrel.
  - intros s l (-> & _). reflexivity.
  - intros s l n (-> & _) Hn. do 2 eexists. split; [reflexivity|]. rewrite skipn_all2 by (unfold zlen in *; lia). auto.
Qed.

Lemma varint_total k bs : Forall is_byte bs ->
  (exists c rest, bs = c ++ rest /\ varint_wf k c) \/ (exists e rest, varint_fails k bs e rest).
Proof.
  intros H. destruct (varint_trichotomy k bs H) as [(c & rest & -> & Hc)|[(hd & rest & -> & Hl & Hf)|(Hl & Hf)]].
  - left. eauto.
  - right. do 2 eexists. now apply varint_overlong.
  - right. do 2 eexists. now apply varint_cut.
Qed.

Lemma varint32_total bs : Forall is_byte bs ->
  (exists c n rest, bs = c ++ rest /\ varint32 c n /\ 0 <= n < 2 ^ 32) \/ (exists e rest, varint_fails 5 bs e rest).
Proof.
  intros H. destruct (varint_total 5 bs H) as [(c & rest & -> & Hc)|]; [left|now right].
  exists c, (varint_value c mod 2 ^ 32), rest. split; [reflexivity|]. split; [split; auto|]. apply Z.mod_pos_bound. lia.
Qed.

Lemma split_at {A} n (l : list A) : (n <= length l)%nat -> exists a b, l = a ++ b /\ length a = n.
Proof. intros H. exists (firstn n l), (skipn n l). split; [symmetry; apply firstn_skipn|]. rewrite firstn_length. lia. Qed.

Lemma scalar_total sc bs : Forall is_byte bs ->
  (exists c z rest, bs = c ++ rest /\ scalar_reads sc c z) \/ (exists e rest, scalar_fails sc bs e rest).
Proof.
  intros H.
  assert (Hv : forall k, scalar_wiretype sc = VARINT -> sc <> Boolean ->
     k = (match sc with UInt32 | Enumeration => 5 | _ => 10 end)%nat ->
     (forall c, varint_wf k c -> exists z, scalar_dec sc c z) ->
     (exists c z rest, bs = c ++ rest /\ scalar_reads sc c z) \/ (exists e rest, scalar_fails sc bs e rest)).
  { intros k Hw Hb -> Hd. destruct (varint_total (match sc with UInt32 | Enumeration => 5 | _ => 10 end) bs H) as [(c & rest & -> & Hc)|(e & rest & Hf)].
    - destruct (Hd c Hc) as (z & Hz). left. exists c, z, rest. split; [reflexivity|]. now constructor.
    - right. exists e, rest. now apply scalar_fails_varint. }
  assert (Hf : forall n, (scalar_wiretype sc = FIXED32 /\ n = 4%nat) \/ (scalar_wiretype sc = FIXED64 /\ n = 8%nat) ->
     (forall c, length c = n -> Forall is_byte c -> exists z, scalar_dec sc c z) ->
     (exists c z rest, bs = c ++ rest /\ scalar_reads sc c z) \/ (exists e rest, scalar_fails sc bs e rest)).
  { intros n Hw Hd. destruct (le_lt_dec n (length bs)) as [Hl|Hl].
    - destruct (split_at n bs Hl) as (a & b & -> & Ha). apply Forall_app in H. destruct (Hd a Ha (proj1 H)) as (z & Hz).
      left. exists a, z, b. split; [reflexivity|]. now constructor.
    - right. exists EndOfBuffer, []. destruct Hw as [[Hw ->]|[Hw ->]]; [now apply scalar_fails_fixed32|now apply scalar_fails_fixed64]. }
  destruct sc;
    try (apply (Hv 10%nat); [reflexivity|discriminate|reflexivity|intros c Hc; eexists; split; [exact Hc|reflexivity]]; fail);
    try (apply (Hv 5%nat); [reflexivity|discriminate|reflexivity|intros c Hc; eexists; split; [exact Hc|reflexivity]]; fail);
    try (apply (Hf 4%nat); [left; split; reflexivity|intros c Hc Hb; eexists; split; [exact Hc|split; [exact Hb|reflexivity]]]; fail);
    try (apply (Hf 8%nat); [right; split; reflexivity|intros c Hc Hb; eexists; split; [exact Hc|split; [exact Hb|reflexivity]]]; fail).
  clear Hv Hf. destruct bs as [|b bs]; [right; exists EndOfBuffer, []; now apply scalar_fails_bool|].
  inversion H; subst. unfold is_byte in *. left. destruct (Z.lt_ge_cases b 128).
  - exists [b], (if varint_value [b] =? 0 then 0 else 1), bs. split; [reflexivity|]. apply scalar_reads_dec. split; [|reflexivity].
    exists [], b. repeat split; auto. lia.
  - exists [b], 1, bs. split; [reflexivity|]. apply scalar_reads_bool; auto. lia.
Qed.

(** The body of a packed field, element by element, with room for [room] more. *)
Lemma packed_total sc : forall n p room, (length p <= n)%nat -> Forall is_byte p -> 0 <= room ->
  exists q zs r, p = q ++ r /\ packed_reads sc q zs /\
  ((zlen zs <= room /\ exists e rest, scalar_fails sc r e rest)
   \/ (zlen zs = room /\ exists c z rest, r = c ++ rest /\ scalar_reads sc c z)).
Proof.
  induction n as [|n IH]; intros p room Hn Hp Hr; destruct (scalar_total sc p Hp) as [(c & z & rest & -> & Hc)|(e & rest & Hf)].
  - pose proof (scalar_reads_nonempty _ _ _ Hc). destruct c; [congruence|]. cbn in Hn. lia.
  - exists [], [], p. split; [reflexivity|]. split; [constructor|]. left. split; [cbn; lia|eauto].
  - destruct (Z.eq_dec room 0) as [->|Hr0].
    + exists [], [], (c ++ rest). split; [reflexivity|]. split; [constructor|]. right. split; [reflexivity|eauto].
    + apply Forall_app in Hp. destruct Hp as [_ Hp]. pose proof (scalar_reads_nonempty _ _ _ Hc).
      rewrite app_length in Hn. destruct (IH rest (room - 1)) as (q & zs & r & -> & Hq & Hcase); auto; [destruct c; [congruence|]; cbn in Hn; lia|lia|].
      exists (c ++ q), (z :: zs), r. split; [now rewrite app_assoc|]. split; [now constructor|]. rewrite zlen_cons.
      destruct Hcase as [[Hz Hx]|[Hz Hx]]; [left|right]; (split; [lia|exact Hx]).
  - exists [], [], p. split; [reflexivity|]. split; [constructor|]. left. split; [cbn; lia|eauto].
Qed.

(** The part of the remaining bytes a length covers. *)
Lemma spans_total n l : 0 <= n -> exists p tail, l = p ++ tail /\ spans n p tail.
Proof.
  intros Hn. destruct (Z.le_gt_cases n (zlen l)).
  - destruct (split_at (Z.to_nat n) l) as (a & b & -> & Ha); [unfold zlen in *; lia|]. exists a, b. split; [reflexivity|]. left. unfold zlen. lia.
  - exists l, []. split; [now rewrite app_nil_r|]. right. auto.
Qed.

Lemma skip_total w bs : Forall is_byte bs ->
  (exists r rest, bs = r ++ rest /\ skippable w r) \/ (exists e rest, skip_fails w bs e rest)
  \/ w = STARTGROUP \/ w = ENDGROUP
  \/ (w = LENDEL /\ exists l n p, bs = l ++ p /\ varint32 l n /\ zlen p < n).
Proof.
  intros H. destruct w; auto.
  - destruct (varint_total 10 bs H) as [(c & rest & -> & Hc)|(e & rest & Hf)].
    + left. exists c, rest. split; [reflexivity|]. now constructor.
    + right. left. exists e, rest. now constructor.
  - destruct (le_lt_dec 8 (length bs)) as [Hl|Hl].
    + destruct (split_at 8 bs Hl) as (a & b & -> & Ha). apply Forall_app in H. left. exists a, b. split; [reflexivity|]. constructor; tauto.
    + right. left. do 2 eexists. now constructor.
  - destruct (varint32_total bs H) as [(l & n & rest & -> & Hl & Hn)|(e & rest & Hf)].
    + destruct (spans_total n rest) as (p & tail & -> & [->|[Hlt ->]]); [lia| |].
      * left. exists (l ++ p), tail. split; [now rewrite app_assoc|]. constructor; auto.
        apply Forall_app in H. destruct H as [_ H]. apply Forall_app in H. tauto.
      * rewrite app_nil_r. right. right. right. right. split; [reflexivity|]. eauto 6.
    + right. left. exists e, rest. now constructor.
  - destruct (le_lt_dec 4 (length bs)) as [Hl|Hl].
    + destruct (split_at 4 bs Hl) as (a & b & -> & Ha). apply Forall_app in H. left. exists a, b. split; [reflexivity|]. constructor; tauto.
    + right. left. do 2 eexists. now constructor.
Qed.

(** A tag: its wire type and its field number. *)
Lemma tag_total n : 0 <= n -> 5 < n mod 8 \/ exists w num, n = num * 8 + wt_code w /\ 0 <= num.
Proof.
  intros Hn. destruct (Z.lt_ge_cases 5 (n mod 8)) as [H|H]; [now left|]. right. exists (wt_of_code (n mod 8)), (n / 8).
  assert (Hc : wt_code (wt_of_code (n mod 8)) = n mod 8).
  { assert (Hm : n mod 8 = 0 \/ n mod 8 = 1 \/ n mod 8 = 2 \/ n mod 8 = 3 \/ n mod 8 = 4 \/ n mod 8 = 5) by lia.
    destruct Hm as [->|[->|[->|[->|[->| ->]]]]]; reflexivity. }
  rewrite Hc. lia.
Qed.

Lemma field_cases fs os num :
  (exists i k t, nth_error fs i = Some (num, k, t))
  \/ (exists j ms t, nth_error os j = Some ms /\ lookup ms num = Some t)
  \/ ~ In num (field_numbers fs os).
Proof.
  destruct (in_dec Z.eq_dec num (field_numbers fs os)) as [H|H]; [|auto]. unfold field_numbers in H. rewrite in_app_iff in H.
  destruct H as [H|H].
  - left. apply in_map_iff in H. destruct H as (((n & k) & t) & <- & H). apply In_nth_error in H. destruct H as (i & H). eauto.
  - right. left. apply in_flat_map in H. destruct H as (ms & Hms & H). apply In_nth_error in Hms. destruct Hms as (j & Hj).
    apply in_map_iff in H. destruct H as ((n & t) & <- & H). cbn [fst].
    assert (Hl : exists t', lookup ms n = Some t').
    { clear -H. induction ms as [|[n' t'] ms IH]; [contradiction|]. cbn [lookup]. destruct (Z.eqb_spec n' n) as [E|E]; [eauto|].
      destruct H as [H|H]; [congruence|auto]. }
    destruct Hl as (t' & Hl). eauto 6.
Qed.

Definition elem_total (t : ety) : Prop := forall bd v old bs, desc_ok t -> ready t v old -> Forall is_byte bs ->
  (exists e new rest, eread false bd t old bs e new rest) \/ (bd = false /\ eover t old bs).

Lemma eover_msg_type t old bs : eover t old bs -> elem_wiretype t = LENDEL.
Proof. destruct 1; reflexivity. Qed.

Lemma wt_dec (a b : wiretype) : {a = b} + {a <> b}.
Proof. decide equality. Qed.

Definition field_over (k : fkind) (t : ety) (w : wiretype) (x : sval) (bs : list Z) : Prop :=
  w = LENDEL /\
  match k with
  | KPlain => eover t x bs
  | KOpt => eover t (opt_start t x) bs
  | KRep max => exists old, x = SvR old /\ zlen old < max /\ eover t (sdefault t) bs
  | KRecursive => False
  end.

Lemma field_total bd k t w x bs i pres v : elem_total t -> desc_ok t ->
  match k with KRep max => capacity_ok max | _ => True end ->
  wt_field k (wt t) v -> clean_field k t (clean t) i pres v -> view_field k (view t) i pres v = x -> Forall is_byte bs ->
  (exists e x' rest, fread false bd k t w x bs e x' rest) \/ (bd = false /\ field_over k t w x bs).
Proof.
  intros Ht Hd Hcap Hw Hc Hv Hb. destruct k as [| |max|].
  - destruct (wt_dec w (elem_wiretype t)) as [->|Hne]; [|left; do 3 eexists; now apply fread_plain_wiretype].
    destruct (Ht bd v x bs Hd) as [(e & new & rest & H)|(Hb0 & H)]; auto.
    + apply good_ready. split; [exact Hw|]. split; [exact Hc|exact Hv].
    + left. do 3 eexists. apply fread_plain; eauto.
    + right. split; [exact Hb0|]. split; [eapply eover_msg_type; eauto|exact H].
  - destruct (wt_dec w (elem_wiretype t)) as [->|Hne]; [|left; do 3 eexists; now apply fread_opt_wiretype].
    destruct (clean_opt_view _ _ _ _ _ Hc Hv) as (Hc1 & Hv1).
    destruct (Ht bd v (opt_start t x) bs Hd) as [(e & new & rest & H)|(Hb0 & H)]; auto.
    + apply good_ready. split; [exact Hw|]. split; [exact Hc1|exact Hv1].
    + left. do 3 eexists. apply fread_opt; eauto.
    + right. split; [exact Hb0|]. split; [eapply eover_msg_type; eauto|exact H].
  - assert (Hx : exists old, x = SvR old /\ zlen old <= max).
    { subst x. cbn [wt_field view_field] in *. destruct v as [| | |len data|]; try contradiction. eexists. split; [reflexivity|].
      destruct Hw as (Hl & Hz & _). rewrite zlen_map, zlen_firstn. lia. }
    destruct Hx as (old & -> & Hold).
    destruct (wt_dec w LENDEL) as [->|Hne]; [|left; do 3 eexists; now apply fread_rep_wiretype].
    destruct t as [sc|st cap|fs os].
    + (* packed *)
      left. destruct (varint32_total bs Hb) as [(l & n & rest & -> & Hl & Hn)|(e & rest & Hf)].
      2:{ do 3 eexists. eapply fread_packed_length; eauto. }
      destruct (spans_total n rest) as (p & tail & -> & Hsp); [lia|]. apply Forall_app in Hb. destruct Hb as [_ Hb]. apply Forall_app in Hb. destruct Hb as [Hb _].
      destruct (packed_total sc (length p) p (max - zlen old)) as (q & zs & r & -> & Hq & [[Hz (e & rest & Hf)]|[Hz (c & z & rest & -> & Hc1)]]); auto; [lia| |].
      * assert (Hdec : {e = EndOfBuffer} + {e <> EndOfBuffer}) by decide equality. destruct Hdec as [->|He].
        -- do 3 eexists. eapply fread_packed; eauto; [lia|].
           assert (Hr0 : rest = []); [|now rewrite Hr0 in Hf]. inversion Hf as [? ? ? ? ? Hv1| | | ]; subst; auto. now inversion Hv1.
        -- do 3 eexists. eapply fread_packed_fails; eauto; lia.
      * do 3 eexists. eapply fread_packed_full; eauto; lia.
    + (* strings and bytes *)
      left. destruct (Z.eq_dec (zlen old) max) as [He|He]; [do 3 eexists; now apply fread_rep_full|].
      destruct (varint32_total bs Hb) as [(l & n & rest & -> & Hl & Hn)|(e & rest & Hf)].
      2:{ do 3 eexists. apply (fread_rep_bytes_length false bd max st cap old []); eauto. lia. }
      destruct (Z.lt_ge_cases cap n) as [Hcn|Hcn].
      { do 3 eexists. apply (fread_rep_bytes_too_long false bd max st cap old [] l n); eauto. lia. }
      destruct (spans_total n rest) as (p & tail & -> & [->|[Hlt ->]]); [lia| |].
      * do 3 eexists. apply fread_rep_bytes; eauto. lia.
      * rewrite app_nil_r. do 3 eexists. eapply fread_rep_bytes_cut; eauto; lia.
    + (* messages *)
      destruct (Z.eq_dec (zlen old) max) as [He|He]; [left; do 3 eexists; now apply fread_rep_full|].
      destruct (default_ok _ Hd) as (Hwd & Hcd & Hvd).
      destruct (Ht bd (default_value (EMsg fs os)) (sdefault (EMsg fs os)) bs Hd) as [(e & new & rest & H)|(Hb0 & H)]; auto.
      { cbn [ready]. auto. }
      * left. inversion H as [| |? ? ? ? ? _ Hf| | | |? ? ? l n p ? ? rest' tail Hl Hsp Hm]; subst.
        -- do 3 eexists. apply fread_rep_msg_length; eauto. lia.
        -- do 3 eexists. eapply fread_rep_msg; eauto. lia.
      * right. split; [exact Hb0|]. split; [reflexivity|]. exists old. split; [reflexivity|]. split; [lia|exact H].
  - left. do 3 eexists. constructor.
Qed.

Lemma record_total fs os : (forall i num k t, nth_error fs i = Some (num, k, t) -> elem_total t) ->
  (forall j ms num t, nth_error os j = Some ms -> lookup ms num = Some t -> elem_total t) ->
  desc_ok (EMsg fs os) -> forall bd v vs ovs tg n bs, good (EMsg fs os) v (SvM vs ovs) -> varint32 tg n -> 0 <= n < 2 ^ 32 ->
  Forall is_byte bs -> n mod 8 <= 5 ->
  (exists e new rest, rread false bd fs os (SvM vs ovs) (tg ++ bs) e new rest)
  \/ (bd = false /\ mover fs os (SvM vs ovs) (tg ++ bs)).
Proof.
  intros Hfs Hos Hd bd v vs ovs tg n bs Hg Htg Hn Hb Hm.
  destruct (tag_total n) as [?|(w & num & -> & Hnum)]; [lia|lia|].
  destruct (good_VM _ _ _ _ _ Hg) as (pres & xs & os' & -> & Hpz & Hpu & Hw & Hwo & Hc & Hco & Ev & Evo).
  destruct (field_cases fs os num) as [(i & k & t & Hf)|[(j & ms & t & Hj & Hl)|Hno]].
  - destruct (desc_field _ _ _ _ _ _ Hd Hf) as (Hdt & Hnum' & Hcap).
    destruct (all2_nth _ _ _ _ _ Hw Hf) as (y & Hy & Hwy).
    pose proof (clean_fields_nth _ _ _ _ _ _ _ _ _ Hf Hy Hc) as Hcy. rewrite Z.add_0_l in Hcy.
    pose proof (view_fields_nth_fwd fs i 0 pres xs num k t y Hf Hy) as Hvy. rewrite <- Ev, Z.add_0_l in Hvy.
    destruct (field_total bd k t w _ bs _ pres y (Hfs _ _ _ _ Hf) Hdt Hcap Hwy Hcy eq_refl Hb) as [(e & x' & rest & H)|(Hb0 & -> & H)].
    + left. do 3 eexists. eapply rread_field; eauto.
    + right. split; [exact Hb0|]. destruct k as [| |max|].
      * eapply mover_plain; eauto.
      * eapply mover_opt; eauto.
      * destruct H as (old & E & Hlt & H). rewrite E in Hvy. eapply mover_rep; eauto.
      * contradiction.
  - destruct (desc_member _ _ _ _ _ _ Hd Hj Hl) as (Hdt & Hnum').
    destruct (all2_nth _ _ _ _ _ Hwo Hj) as (o' & Ho' & Hwo').
    destruct (all2_nth _ _ _ _ _ Hco Hj) as (o'' & Ho'' & Hco'). rewrite Ho' in Ho''. injection Ho'' as <-.
    pose proof (view_oneofs_nth_fwd _ _ _ _ _ Hj Ho') as Hvo. rewrite <- Evo in Hvo.
    set (o := view_oneof (map (fun '(num, t) => (num, view t)) ms) o') in *.
    destruct (wt_dec w (elem_wiretype t)) as [->|Hne]; [|left; do 3 eexists; eapply rread_oneof_wiretype; eauto].
    set (x1 := if num =? fst o' then snd o' else placement_new t).
    assert (Hre : ready t x1 (member_start num t o)).
    { unfold x1, member_start, o. unfold wt_oneof, clean_oneof, view_oneof in *. rewrite (lookup_map wt) in Hwo'. rewrite (lookup_map clean) in Hco'.
      rewrite (lookup_map view).
      destruct (Z.eqb_spec num (fst o')) as [E|E].
      - rewrite <- E, Hl in *. cbn [option_map] in *. cbn [fst snd opt_start]. rewrite Z.eqb_refl. apply good_ready. now split.
      - destruct (lookup ms (fst o')); cbn [option_map fst snd]; [|destruct (Z.eqb_spec num 0); [lia|]; now apply placement_ready].
        destruct (Z.eqb_spec num (fst o')); [lia|]. now apply placement_ready. }
    destruct (Hos _ _ _ _ Hj Hl bd x1 _ bs Hdt Hre Hb) as [(e & new & rest & H)|(Hb0 & H)].
    + left. do 3 eexists. eapply rread_oneof; eauto.
    + right. split; [exact Hb0|]. eapply mover_oneof; eauto. now rewrite <- (eover_msg_type _ _ _ H).
  - destruct (Z.eq_dec num 0) as [->|Hn0]; [left; do 3 eexists; apply (rread_zero false bd fs os vs ovs tg w); exact Htg|].
    destruct (skip_total w bs Hb) as [(r & rest & -> & Hs)|[(e & rest & Hs)|[Hs|[Hs|(-> & l & m & p & -> & Hl & Hlt)]]]].
    + left. do 3 eexists. eapply rread_unknown; eauto. lia.
    + left. do 3 eexists. eapply rread_unknown_fails; eauto. lia.
    + left. do 3 eexists. apply (rread_unknown_group false bd fs os vs ovs num tg w); auto. lia.
    + left. do 3 eexists. apply (rread_unknown_group false bd fs os vs ovs num tg w); auto. lia.
    + destruct bd; [left; do 3 eexists; eapply rread_unknown_rest; eauto; lia|].
      right. split; [reflexivity|]. eapply mover_here; eauto. lia.
Qed.

Lemma records_total fs os : (forall i num k t, nth_error fs i = Some (num, k, t) -> elem_total t) ->
  (forall j ms num t, nth_error os j = Some ms -> lookup ms num = Some t -> elem_total t) ->
  desc_ok (EMsg fs os) -> forall bd n v old bs, (length bs <= n)%nat -> good (EMsg fs os) v old -> Forall is_byte bs ->
  (exists e new rest, mread false bd fs os old bs e new rest) \/ (bd = false /\ mover fs os old bs).
Proof.
  intros Hfs Hos Hd bd. induction n as [|n IH]; intros v old bs Hlen Hg Hb.
  all: assert (Hold : exists vs ovs, old = SvM vs ovs)
    by (destruct Hg as (Hw & _ & <-); destruct v; try contradiction; rewrite view_tab; eauto).
  all: destruct Hold as (vs & ovs & ->).
  { destruct bs; [|cbn in Hlen; lia]. left. do 3 eexists. apply mread_end. apply varint_cut; [cbn; lia|constructor]. }
  destruct (varint32_total bs Hb) as [(tg & m & rest & -> & Htg & Hm)|(e & rest & Hf)].
  2:{ left. destruct Hf as [b H1 H2|b r H1 H2].
      - do 3 eexists. apply mread_end. now apply varint_cut.
      - do 3 eexists. apply mread_tag_overlong. now apply varint_overlong. }
  destruct (Z.lt_ge_cases 5 (m mod 8)) as [H5|H5]; [left; do 3 eexists; eapply mread_tag_wiretype; eauto|].
  apply Forall_app in Hb as Hb2. destruct Hb2 as [_ Hb2].
  destruct (record_total fs os Hfs Hos Hd bd v vs ovs tg m rest Hg Htg Hm Hb2 ltac:(lia)) as [(e & mid & bs' & H)|H]; [|now right].
  assert (Hdec : {e = NoErrors} + {e <> NoErrors}) by decide equality. destruct Hdec as [->|He].
  2:{ left. do 3 eexists. apply mread_stop; eauto. }
  destruct (proj1 (proj2 (proj2 (read_suffix false bd))) _ _ _ _ _ _ _ H) as (u & Eu & Hne).
  destruct (proj1 (proj2 (proj2 (read_ok false bd))) _ _ _ _ _ _ _ H v _ lops lrel lops_ok (fun _ => lops_bounded) (tg ++ rest) (Datatypes.S (length (tg ++ rest))))
    as (w & id & s1 & v1 & s2 & _ & _ & Hr2 & Hw1 & Hc1 & _ & Hv1); auto. { split; [reflexivity|exact Hb]. }
  destruct (IH v1 mid bs') as [(e & new & rest' & H')|(-> & H')].
  - rewrite Eu, app_length in Hlen. destruct u; [congruence|]. cbn in Hlen. lia.
  - split; [|split]; auto.
  - apply Hr2.
  - left. exists e, new, rest'. eapply mread_next; eauto.
  - right. split; [reflexivity|]. eapply mover_next; eauto.
Qed.

Theorem elem_total_all : forall t, elem_total t.
Proof.
  induction t as [sc|st max|fs os Hf Ho] using ety_ind'; intros bd v old bs Hd Hre Hb.
  - left. destruct (scalar_total sc bs Hb) as [(c & z & rest & -> & Hc)|(e & rest & Hf)].
    + do 3 eexists. apply eread_scalar; eauto.
    + do 3 eexists. apply eread_scalar_fails; eauto.
  - left. destruct (varint32_total bs Hb) as [(l & n & rest & -> & Hl & Hn)|(e & rest & Hf)].
    2:{ do 3 eexists. apply eread_length; eauto. }
    destruct (Z.lt_ge_cases max n). { do 3 eexists. eapply eread_too_long; eauto. }
    destruct (spans_total n rest) as (p & tail & -> & [->|[Hlt ->]]); [lia| |].
    + do 3 eexists. apply eread_bytes; eauto.
    + rewrite app_nil_r. do 3 eexists. eapply eread_cut; eauto.
  - destruct (varint32_total bs Hb) as [(l & n & rest & -> & Hl & Hn)|(e & rest & Hfl)].
    2:{ left. do 3 eexists. apply eread_length; eauto. }
    destruct (spans_total n rest) as (p & tail & -> & Hsp); [lia|].
    apply Forall_app in Hb. destruct Hb as [_ Hb]. apply Forall_app in Hb. destruct Hb as [Hb _].
    destruct (records_total fs os) with (bd := bd || (n =? zlen p)) (n := length p) (v := v) (old := old) (bs := p)
      as [(e & new & rest & H)|(Hb0 & H)]; auto.
    + intros i num k t Hi. eapply Forall_forall in Hf; [|eapply nth_error_In; exact Hi]. exact Hf.
    + intros j ms num t Hj Hlk. eapply Forall_forall in Ho; [|eapply nth_error_In; exact Hj].
      eapply Forall_forall in Ho; [|eapply lookup_In; exact Hlk]. exact Ho.
    + left. do 3 eexists. eapply eread_msg; eauto.
    + right. destruct bd; [discriminate|]. split; [reflexivity|]. destruct Hsp as [->|[Hlt ->]].
      * rewrite Z.eqb_refl in Hb0. discriminate.
      * rewrite app_nil_r. eapply eover_msg; eauto.
Qed.

(** Every byte string is covered. *)
Theorem read_total bd fs os v bs : desc_ok (EMsg fs os) -> wt (EMsg fs os) v -> clean (EMsg fs os) v -> Forall is_byte bs ->
  (exists e new rest, mread false bd fs os (view (EMsg fs os) v) bs e new rest)
  \/ (bd = false /\ mover fs os (view (EMsg fs os) v) bs).
Proof.
  intros Hd Hw Hc Hb. apply (records_total fs os) with (n := length bs) (v := v); auto.
  - intros. apply elem_total_all.
  - intros. apply elem_total_all.
  - unfold good. auto.
Qed.
