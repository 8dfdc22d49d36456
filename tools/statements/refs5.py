from refs1 import OBT
M=[]
def m(id,thm,edits,english,ref,pre=''): M.append(dict(id=id,thm=thm,edits=edits,english=english,ref=ref,pre=pre))
TOLD='''Ltac told s tk2 := intro H; specialize (H true W64 %s trace_delegate (bs s) []%%list);
  assert (I : PropTok.input_ok true W64 (bs s)) by str; specialize (H I).
'''
def told(cfg,s,toks_n,bad):
    # parse s with trace delegate; the first toks_n tokens are computed
    return f'''intro H. specialize (H true W64 {cfg} trace_delegate (bs "{s}") []). assert (I : PropTok.input_ok true W64 (bs "{s}")) by str. specialize (H I). clear I. revert H.
 destruct (parse_with true W64 (recording trace_delegate) (bs "{s}") {cfg} ([], [])) as [r [st log]] eqn:E. vm_compute in E. injection E as <- <- <-. intro H. cbv beta iota zeta in H.
 destruct H as (tks & F & L & K). cbn [flat_map told app] in L. {bad}'''
# step: destruct tks and compute the next token
STEP='''destruct tks as [|t tks]; [try discriminate L|unfold first_tokens in F; cbn [length next_n map] in F;
 match type of F with context [tokenizer_next ?g ?p ?i] => let v := eval vm_compute in (tokenizer_next g p i) in change (tokenizer_next g p i) with v in F end; cbv beta iota zeta in F;
 match type of F with context [next_n ?g ?p ?n ?i] => destruct (next_n g p n i) as [rs it2] end; cbn [fst] in F; injection F as E1 F; subst t; cbn [filter not_separator] in L; try discriminate L].'''
m('W01','C100_delegates_are_told_the_tokens',[('Parser',"| TkBool value => p_del offset (fun st => d_boolean D st value)","| TkBool value => p_del offset (fun st => d_boolean D st (negb value))")],
 'delegates are told the negation of booleans',told('config_new','true',1,STEP))
m('W02','C100_delegates_are_told_the_tokens',[('Parser',"| TkNull => p_del offset (fun st => d_null D st)","| TkNull => p_del offset (fun st => d_boolean D st false)")],
 'null is told as false',told('config_new','null',1,STEP))
m('W04','C100_told_the_same',[('Parser',"| TkBool value => p_del offset (fun st => d_boolean D st value)","| TkBool value => p_del offset (fun st => d_boolean D st (xorb value (allow_trailing_commas cfg)))")],
 'a configuration changes which boolean is told','''intro H. specialize (H true W64 config_new trace_delegate [] (allowing_trailing_commas config_new) trace_delegate [] (bs "true") ltac:(str)). vm_compute in H. destruct H as [[x E]|[x E]]; discriminate E.''')
EMPTY='''Definition e0 := Eval vm_compute in match js_from_str W64 [] with Ok v => v | _ => JStr (CRaw (Borrowed [])) 0 end.
Lemma h0 : exists env, holds W64 env /\\ incl [IObject []; IString e0; IValue VNull; IValue (VArray [])] env.
Proof. apply can_all. repeat constructor.
 - apply (can_one W64 ObjectNew); [constructor|reflexivity|exact I].
 - apply (can_one W64 (FromStr [])); [apply only_one, can_text; str|vm_compute; reflexivity|exact I].
 - apply (can_one W64 MakeNull); [constructor|reflexivity|exact I].
 - apply (can_one W64 (MakeArray [])); [constructor|reflexivity|exact I].
Qed.
'''
m('W05','C99_panics_exactly',[('ObjectModel',"if Nat.leb i (length o) then","if Nat.ltb i (length o) then")],'Object::insert panics at the end',
 '''intro H. destruct h0 as (env & He & Hi). destruct (H W64 env (ObjectInsert [] 0 e0 VNull) FIndex He) as [K _]; [intros i Ii; apply Hi; cbn in *; tauto|]. destruct (K eq_refl) as [_ L]. cbn in L. lia.''',EMPTY)
m('W06','C99_panics_exactly',[('ValueModel',"  expect_some (get_index_mut v index).","  match get_index_mut v index with Some r => Ok r | None => Ok (VNull, fun w => v) end.")],'v[i] = w outside of the array does nothing',
 '''intro H. destruct h0 as (env & He & Hi). destruct (H W64 env (SetIndex (VArray []) 0 VNull) FExpect He) as [_ K]; [intros i Ii; apply Hi; cbn in *; tauto|]. discriminate (K (conj eq_refl eq_refl)).''',EMPTY)
m('W07','C99_panics_exactly',[('ObjectModel',"  | None => Fault FIndex\n  end.","  | None => Ok ((JStr (CJson (Borrowed [])) 0%N, VNull), o)\n  end.")],'Object::remove outside of the object removes the first entry',
 '''intro H. destruct h0 as (env & He & Hi). destruct (H W64 env (ObjectRemove [] 0) FIndex He) as [_ K]; [intros i Ii; apply Hi; cbn in *; tauto|]. discriminate (K (conj eq_refl (le_n 0))).''',EMPTY)
m('W08','C99_every_listed_panic_happens',[('ValueModel',"  expect_some (get_index v index).","  match get_index v index with Some r => Ok r | None => Ok VNull end.")],'v[i] is null outside of the array',
 '''intro H. destruct (H W64) as (_ & _ & env & v & w & key & o & x & _ & _ & E & _). cbn [answer] in E. unfold value_index in E. destruct (get_index v 0); discriminate E.''')
m('W09','C99_every_listed_panic_happens',[('ObjectModel',"if Nat.leb i (length o) then Ok (firstn i o ++ e :: skipn i o) else Fault FIndex.","Ok (firstn i o ++ e :: skipn i o).")],'Object::insert beyond the end appends',
 '''intro H. destruct (H W64) as (_ & _ & env & v & w & key & o & x & _ & _ & _ & _ & _ & _ & E & _). discriminate E.''')
m('W10','C99_panics_exactly',[('ValueModel',"  let? o := value_get_mut pw v key in expect_some o.","  let? o := value_get_mut pw v key in match o with Some r => Ok r | None => match v with VObject _ => Fault FExpect | _ => Ok (VNull, fun w => v) end end.")],'v[key] = w does nothing if v is no object',
 '''intro H. destruct h0 as (env & He & Hi). destruct (H W64 (IText [] :: env) (SetIndexStr VNull [] VNull) FExpect) as [_ K]; [apply holds_text; [str|exact He]|intros i Ii; cbn in Ii; destruct Ii as [<-|[<-|[<-|[]]]]; [right; apply Hi; cbn; tauto|left; reflexivity|right; apply Hi; cbn; tauto]|].
 assert (Q : answer W64 (SetIndexStr VNull [] VNull) = Fault FExpect) by (apply K; split; reflexivity). vm_compute in Q. discriminate Q.''',EMPTY)
