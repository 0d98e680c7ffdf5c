(** * GenInstanceWire: C64 together with the properties of messages. *)
From Coq Require Import String.
From Verif Require Import Base Buffers Schema Fields Message Api Spec SpecBuffer SpecLoad Contracts SerProps LoadProps Printf Generator GenCode
  SpecGenerator SpecInstance GenSamples GenInstance GenInstanceSamples.
From Coq Require Import List.

Lemma schema_wire limit request hs s c lengths t v v0 cap b content n b' :
  protoc_ok request -> supported request -> generate limit request = Some hs -> generated hs s c -> (forall p, capacity_ok (lengths p)) ->
  instance hs (generate_code request) s (map lengths (c_params c)) t ->
  wt t v -> zlen (enc t (view t v)) < 2 ^ 32 ->
  v0 = default_value t \/ (exists w, wt t w /\ clear t w = Done v0) ->
  wfix_rel cap b content (Some n) -> serialize t v _ (wfix_ops cap) b = Done (NoErrors, b') ->
  exists t0, declared request lengths s t0 /\ wfix_content b' = wfix_content b ++ enc t0 (view t0 v)
    /\ forall cap' r, filled cap' r (enc t0 (view t0 v)) -> forall fuel, (length (enc t0 (view t0 v)) < fuel)%nat ->
       exists v' r', deserialize fuel t rfix (rfix_ops cap') v0 r = Done (NoErrors, v', r')
         /\ view t0 v' = norm t0 (view t0 v) /\ (no_neg_zero t0 (view t0 v) -> view t0 v' = view t0 v).
Proof.
  intros Hp Hs Hgen Hg Hcap Hi Hw Hz H0 Hrel Hser. destruct (instance_declared _ _ _ _ _ _ _ Hp Hs Hgen Hg Hcap Hi) as [Hd Hok].
  exists t. split; [exact Hd|]. inversion Hd as [lengths' s' m fs os Hm Hfs Hos]; subst.
  pose proof (serialize_is_enc fs os v Hw Hok Hz cap b content n Hrel b' Hser) as Hc. split; [exact Hc|].
  destruct (fixed_round_trip fs os v v0 cap b content n b' Hok Hw Hz H0 Hrel Hser) as (bytes & E & H).
  rewrite Hc in E. apply app_inv_head in E. subst bytes. exact H.
Qed.

Lemma screens_apply : protoc_ok screens /\ supported screens /\ generate 10 screens = Some screen_headers
  /\ (exists m, message screens (pa ["app"; "Screen"]%string) m)
  /\ (exists c, generated screen_headers (pa ["app"; "Screen"]%string) c /\ length (c_params c) = 5%nat
        /\ instance screen_headers (generate_code screens) (pa ["app"; "Screen"]%string) (map name_length (c_params c)) Screen_type)
  /\ (forall t, declared screens name_length (pa ["app"; "Screen"]%string) t <-> t = Screen_type).
Proof.
  split; [exact screens_protoc|]. split; [exact screens_supported|]. split; [exact screens_generated|].
  assert (Hm : exists m, message screens (pa ["app"; "Screen"]%string) m).
  { eexists. apply messages_spec. do 2 right. left. reflexivity. }
  split; [exact Hm|]. destruct Hm as [m Hm].
  destruct (generated_schema 10 screens screen_headers _ m name_length screens_protoc screens_supported screens_generated Hm) as (t & H1 & H2).
  assert (E : Screen_type = t) by (apply H1; exact screen_declared). subst t. split; [|exact H1].
  destruct (find_class screen_headers (pa ["app"; "Screen"]%string)) as [c|] eqn:Ec; [|vm_compute in Ec; discriminate].
  exists c. split; [apply find_class_spec; exact Ec|]. split; [vm_compute in Ec; injection Ec as <-; reflexivity|].
  apply (H2 c); [apply find_class_spec; exact Ec|reflexivity].
Qed.
