(** Computable sufficient conditions for the obligations of WorldSpec.v, used only to
    check concrete example histories. *)
From Verif Require Import Base IdModel TypeModel IrModel BuilderModel WorldModel UsesSpec
  DfgSpec WorldSpec.

Definition tidyb (o : op) (w : world) : bool :=
  match o with
  | ORemoveBB f b =>
      match p_funcs (w_prog w) !! f with
      | Some fd =>
          match blks fd !! b with
          | Some bd =>
              forallb (λ q, match vals fd !! q with
                            | Some d => match operands (v_kind d), targets (v_kind d) with
                                        | [], [] => true | _, _ => false end
                            | None => true end) (bb_params bd)
          | None => true
          end
      | None => true
      end
  | ONewGlobalRaw _ _ k => match targets k with [] => true | _ => false end
  | _ => true
  end.

Definition releasesb (o : op) (w : world) : bool :=
  match o with
  | ORemoveFunc f =>
      match p_funcs (w_prog w) !! f with
      | Some fd => forallb (λ p, forallb (λ v, match p_values (w_prog w) !! v with
                                               | None => true | Some _ => false end)
                                   (operands (v_kind p.2))) (map_to_list (vals fd))
      | None => true
      end
  | _ => true
  end.

Fixpoint throughoutb (P : op → world → bool) (os : list op) (w : world) : bool :=
  match os with
  | [] => true
  | o :: os' => P o w && match step o w with Some w' => throughoutb P os' w' | None => true end
  end.

Lemma tidyb_sound o w : tidyb o w = true → tidy o w.
Proof.
  destruct o; simpl; try done.
  - intros H fd bd q d Hf Hb Hq Hd. rewrite Hf, Hb in H.
    rewrite forallb_forall in H. specialize (H q). rewrite Hd in H.
    apply elem_of_list_In in Hq. specialize (H Hq).
    by destruct (operands (v_kind d)), (targets (v_kind d)).
  - by destruct (targets k).
Qed.

Lemma releasesb_sound o w : releasesb o w = true → releases_globals o w.
Proof.
  destruct o; simpl; try done.
  intros H fd u v Hf (d & Hd & Hv). rewrite Hf in H.
  rewrite forallb_forall in H. specialize (H (u, d)). simpl in H.
  rewrite <- elem_of_list_In, elem_of_map_to_list in H. specialize (H Hd).
  rewrite forallb_forall in H. apply elem_of_list_In in Hv. specialize (H v Hv).
  by destruct (p_values (w_prog w) !! v).
Qed.

Lemma throughoutb_sound (P : op → world → Prop) Pb :
  (∀ o w, Pb o w = true → P o w) →
  ∀ os w, throughoutb Pb os w = true → throughout P os w.
Proof.
  intros HP. induction os as [|o os IH]; intros w H; simpl in *; [done|].
  apply andb_prop in H as [H1 H2]. split; [by apply HP|].
  intros w' Hw. rewrite Hw in H2. by apply IH.
Qed.
