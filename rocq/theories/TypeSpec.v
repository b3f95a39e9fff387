(** Specifications about types, independent of the model's helpers. *)
From Verif Require Import Base TypeModel.

(** The type a request denotes, given the structural types of the handles the client
    already holds. *)
Definition req_ty (ts : list ty) (r : treq) : option ty :=
  match r with
  | RInt32 => Some TInt32
  | RUnit => Some TUnit
  | RArray b n => t ← ts !! b; Some (TArray t n)
  | RPtr b => t ← ts !! b; Some (TPtr t)
  | RFun ps r => l ← mapM (λ i, ts !! i) ps; t ← ts !! r; Some (TFun l t)
  end.

(** The structural types denoted by the results of a sequence of requests. *)
Fixpoint req_tys (rs : list treq) (ts : list ty) : option (list ty) :=
  match rs with
  | [] => Some ts
  | r :: rs' => t ← req_ty ts r; req_tys rs' (ts ++ [t])
  end.

(** Mathematical size in bytes. *)
Fixpoint byte_size (ptr_size : N) (t : ty) : N :=
  match t with
  | TInt32 => 4
  | TUnit => 0
  | TArray b len => byte_size ptr_size b * len
  | TPtr _ | TFun _ _ => ptr_size
  end%N.

(** Strong induction principle for the nested inductive [ty]. *)
Lemma ty_ind' (P : ty → Prop) :
  P TInt32 → P TUnit →
  (∀ b n, P b → P (TArray b n)) →
  (∀ b, P b → P (TPtr b)) →
  (∀ ps r, Forall P ps → P r → P (TFun ps r)) →
  ∀ t, P t.
Proof.
  intros Hi Hu Ha Hp Hf. fix IH 1. intros [| |b n|b|ps r].
  - apply Hi.
  - apply Hu.
  - apply Ha, IH.
  - apply Hp, IH.
  - apply Hf; [|apply IH]. induction ps as [|p ps IHps]; constructor; [apply IH|apply IHps].
Qed.

(** [denotes h a t]: the handle [a] points (through the heap [h]) to type [t]. *)
Inductive denotes (h : gmap N tkind) : N → ty → Prop :=
  | den_i32 a : h !! a = Some KInt32 → denotes h a TInt32
  | den_unit a : h !! a = Some KUnit → denotes h a TUnit
  | den_array a b n t : h !! a = Some (KArray b n) → denotes h b t → denotes h a (TArray t n)
  | den_ptr a b t : h !! a = Some (KPtr b) → denotes h b t → denotes h a (TPtr t)
  | den_fun a ps r ts t :
      h !! a = Some (KFun ps r) → Forall2 (denotes h) ps ts → denotes h r t →
      denotes h a (TFun ts t).
