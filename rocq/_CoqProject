-Q theories Verif
theories/Base.v
theories/Bytes.v
theories/BytesSpec.v
theories/BytesProofs.v
theories/C01Props.v
theories/Common.v
theories/CommonProofs.v
theories/C02Props.v
theories/BitFields.v
theories/BitFieldsSpec.v
theories/BitFieldsProofs.v
theories/C03Props.v
theories/Utf8.v
theories/Utf8Spec.v
theories/Utf8Proofs.v
theories/C04Props.v
theories/CharTypes.v
theories/Escape.v
theories/EscapeSpec.v
theories/EscapeProofs.v
theories/C05Props.v
theories/C06Props.v
theories/C57Props.v
theories/Arch.v
theories/CTypesSpec.v
theories/IntLit.v
theories/IntLitSpec.v
theories/IntLitProofs.v
theories/C07Props.v
theories/ConstConv.v
theories/ConstConvProofs.v
theories/C08Props.v
theories/ConstFold.v
theories/ConstFoldSpec.v
theories/ConstFoldProofs.v
theories/C11Props.v
theories/ArithConv.v
theories/ArithConvSpec.v
theories/C09Props.v
theories/Specifiers.v
theories/SpecifiersSpec.v
theories/SpecifiersProofs.v
theories/C10Props.v
theories/Layout.v
theories/LayoutSpec.v
theories/LayoutProofs.v
theories/BitLayoutProofs.v
theories/C12Props.v
theories/C13Props.v
theories/C14Props.v
theories/Types.v
theories/TypesProofs.v
theories/C15Props.v
theories/MacroTable.v
theories/MacroTableSpec.v
theories/MacroTableProofs.v
theories/C16Props.v
theories/C18Props.v
theories/StringSet.v
theories/StringSetSpec.v
theories/C17Props.v
theories/Tokens.v
theories/Fuel.v
theories/Expander.v
theories/ExpanderSpec.v
theories/ExpanderProofs.v
theories/CallProofs.v
theories/C59Props.v
theories/C60Props.v
theories/Precedence.v
theories/PPExpr.v
theories/PPExprSpec.v
theories/PPExprProofs.v
theories/PPExprSound.v
theories/C19Props.v
theories/Directives.v
theories/CondInclSpec.v
theories/CondInclProofs.v
theories/C20Props.v
theories/Lookahead.v
theories/C21Props.v
theories/C61Props.v
theories/Tokenizer.v
theories/TokenizerSpec.v
theories/TokenizerProofs.v
theories/ScanProofs.v
theories/TilingProofs.v
theories/TokSafeProofs.v
theories/C22Props.v
theories/C23Props.v
theories/C24Props.v
theories/C62Props.v
theories/Symbols.v
theories/SymbolsSpec.v
theories/SymbolsProofs.v
theories/ScopeProofs.v
theories/C25Props.v
theories/Pratt.v
theories/PrattSpec.v
theories/PrattProofs.v
theories/PrattSound.v
theories/PrattTotal.v
theories/C26Props.v
theories/IR.v
theories/IRProofs.v
theories/C27Props.v
theories/RemoveDead.v
theories/RemoveDeadSpec.v
theories/RemoveDeadProofs.v
theories/C56Props.v
theories/Dominator.v
theories/DominatorSpec.v
theories/DominatorProofs.v
theories/PostOrderProofs.v
theories/C28Props.v
theories/X86.v
theories/Codegen.v
theories/AsmSpec.v
theories/X86Proofs.v
theories/CodegenProofs.v
theories/C34Props.v
theories/C35Props.v
theories/OpSelect.v
theories/AsmIntProofs.v
theories/AsmOpProofs.v
theories/CastSelect.v
theories/AsmCastProofs.v
theories/C30Props.v
theories/C31Props.v
theories/X86Preserve.v
theories/C32Props.v
theories/C33Props.v
theories/C63Props.v
theories/C64Props.v
theories/Frame.v
theories/FrameSpec.v
theories/FrameProofs.v
theories/C36Props.v
theories/Phi.v
theories/PhiSpec.v
theories/C29Props.v
theories/Labels.v
theories/C39Props.v
theories/Object.v
theories/ObjectSpec.v
theories/ObjectProofs.v
theories/C43Props.v
theories/C44Props.v
theories/Linker.v
theories/LinkerSpec.v
theories/LinkerProofs.v
theories/C45Props.v
theories/C46Props.v
theories/Elf.v
theories/ElfSpec.v
theories/ElfProofs.v
theories/ElfBuild.v
theories/ElfShape.v
theories/ElfRead.v
theories/C47Props.v
theories/C48Props.v
theories/Coff.v
theories/CoffSpec.v
theories/CoffProofs.v
theories/C49Props.v
theories/Pragma.v
theories/PragmaSpec.v
theories/C52Props.v
theories/Arguments.v
theories/ArgumentsSpec.v
theories/C54Props.v
theories/Encode.v
theories/EncodeSpec.v
theories/EncodeProofs.v
theories/EncodeRows.v
theories/EncodeRight.v
theories/EncodeForms.v
theories/EncodeMain.v
theories/C42Props.v
theories/C41Props.v
theories/Condition.v
theories/C50Props.v
theories/CExprSpec.v
theories/CExpr.v
theories/CExprElab.v
theories/CExprMachine.v
theories/CExprProofs.v
theories/CExprEval.v
theories/C65Props.v
theories/C51Props.v
theories/SysV.v
theories/SysVSpec.v
theories/SysVProofs.v
theories/C37Props.v
theories/Passing.v
theories/PassingSpec.v
theories/PassingProofs.v
theories/PassingRegs.v
theories/PassingLayout.v
theories/PassingCall.v
theories/PassingEntry.v
theories/C66Props.v
theories/Returning.v
theories/ReturningSpec.v
theories/ReturningProofs.v
theories/C67Props.v
theories/C68Props.v
theories/VaArg.v
theories/VaArgSpec.v
theories/VaArgProofs.v
theories/VaArgWalk.v
theories/C38Props.v
theories/TentativeSpec.v
theories/Tentative.v
theories/TentativeProofs.v
theories/C53Props.v
theories/StaticData.v
theories/StaticDataSpec.v
theories/StaticDataProofs.v
theories/StaticDataEmit.v
theories/C40Props.v
theories/Mem2reg.v
theories/Mem2regSpec.v
theories/Mem2regProofs.v
theories/Mem2regMain.v
theories/C55Props.v
theories/FlowSpec.v
theories/Flow.v
theories/FlowSim.v
theories/FlowProofs.v
theories/FlowMain.v
theories/FlowContinue.v
theories/FlowTotal.v
theories/C69Props.v
theories/InitParse.v
theories/InitSpec.v
theories/InitSteps.v
theories/InitProofs.v
theories/InitMain.v
theories/C70Props.v
theories/Declarator.v
theories/DeclaratorSpec.v
theories/DeclaratorProofs.v
theories/C71Props.v
theories/Schedule.v
theories/ScheduleSpec.v
theories/ScheduleProofs.v
theories/SchedulePlace.v
theories/ScheduleOrder.v
theories/ScheduleMain.v
theories/C72Props.v
theories/ExprType.v
theories/ExprTypeSpec.v
theories/ExprTypeProofs.v
theories/ExprTypeConv.v
theories/ExprTypeMain.v
theories/C73Props.v
theories/Microsoft.v
theories/MicrosoftSpec.v
theories/MicrosoftProofs.v
theories/C74Props.v
theories/PtrSpec.v
theories/PtrExpr.v
theories/PtrArith.v
theories/PtrEval.v
theories/PtrParts.v
theories/C75Props.v
theories/InclSpec.v
theories/InclProofs.v
theories/C76Props.v
theories/Tags.v
theories/TagsSpec.v
theories/TagsProofs.v
theories/C77Props.v
theories/Enum.v
theories/EnumSpec.v
theories/EnumProofs.v
theories/C78Props.v
theories/PasteSpec.v
theories/PasteProofs.v
theories/PasteCall.v
theories/C79Props.v
theories/Driver.v
theories/DriverSpec.v
theories/DriverProofs.v
theories/C80Props.v
theories/Redecl.v
theories/RedeclSpec.v
theories/RedeclProofs.v
theories/C81Props.v
theories/Peephole.v
theories/PeepholeSpec.v
theories/PeepholeProofs.v
theories/C82Props.v
theories/PrintTokens.v
theories/PrintSpec.v
theories/PrintProofs.v
theories/C83Props.v
theories/DepFile.v
theories/DepFileSpec.v
theories/C84Props.v
theories/PrintAccept.v
theories/LineSpec.v
theories/C85Props.v
theories/OffsetOf.v
theories/OffsetOfSpec.v
theories/OffsetOfProofs.v
theories/C86Props.v
theories/StaticAssert.v
theories/C87Props.v
theories/Builtin.v
theories/C88Props.v
theories/Vla.v
theories/VlaSpec.v
theories/VlaProofs.v
theories/C89Props.v
theories/CondFold.v
theories/CondFoldSpec.v
theories/C90Props.v
