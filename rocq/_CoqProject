-Q theories Verif
theories/Base.v
theories/Asn1rs.v
theories/Ber.v
theories/Der.v
theories/Combinators.v
theories/Serialize.v
theories/Visit.v
theories/Print.v
theories/OidMacro.v
theories/OidConst.v
theories/OptionalProgram.v
theories/Conformance.v
theories/Spec.v
theories/SpecValue.v
theories/SpecComb.v
theories/LemComb.v
theories/LemBase.v
theories/LemHeader.v
theories/LemSkip.v
theories/LemParse.v
theories/LemDer.v
theories/LemText.v
theories/LemTree.v
theories/LemNode.v
theories/LemFrame.v
theories/LemVariant.v
theories/PropHeader.v
theories/PropTotal.v
theories/PropFraming.v
theories/PropVariant.v
theories/PropComb.v
theories/PropDer.v
theories/LemInt.v
theories/PropInt.v
theories/PropBits.v
theories/PropIndef.v
theories/SpecSer.v
theories/LemSer.v
theories/PropSer.v
theories/PropEnc.v
theories/SpecVisit.v
theories/PropVisit.v
theories/SpecOid.v
theories/LemOid.v
theories/PropOid.v
theories/Typed.v
theories/SpecTyped.v
theories/SpecError.v
theories/PropTyped.v
theories/PropContent.v
theories/Stateful.v
theories/SpecState.v
theories/PropState.v
theories/PrintText.v
theories/SpecPrint.v
theories/PropPrint.v
theories/PropAny.v
theories/Equal.v
theories/SpecEqual.v
theories/PropEqual.v
theories/SpecSize.v
theories/PropSize.v
theories/Cost.v
theories/PropCost.v
theories/Writer.v
theories/PropWriter.v
theories/SpecAbstract.v
theories/SpecRead.v
theories/SpecSchema.v
theories/SpecAccept.v
theories/LemAbstract.v
theories/PropAbstract.v
theories/PropAbstractEnc.v
theories/LemUnique.v
theories/PropUnique.v
theories/PropRewrite.v
theories/PropRead.v
theories/PropSchema.v
theories/PropSchemaEnc.v
theories/PropReadWrite.v
theories/PropSet.v
theories/PropAccept.v
theories/X501.v
theories/Programs.v
theories/PropChoice.v
theories/PropPrograms.v
theories/PropError.v
theories/PropErrorComb.v
theories/Stack.v
theories/PropStack.v
theories/Dump.v
theories/SpecDump.v
theories/PropDump.v
theories/PropOidText.v
theories/PrintWrite.v
theories/PropPrintWrite.v
theories/PropStream.v
theories/PropStreamComb.v
theories/CostEnc.v
theories/PropCostEnc.v
theories/SpecSegment.v
theories/PropSegment.v
theories/PropWriteBack.v
theories/SpecExact.v
theories/PropExact.v
theories/Width.v
theories/PropWidth.v
theories/CostComb.v
theories/PropCostComb.v
theories/PropCostLeast.v
theories/SpecOptional.v
theories/PropOptional.v
theories/SpecAlike.v
theories/PropAlike.v
theories/DocPrograms.v
theories/PropDoc.v
theories/PropMade.v
theories/ImplicitPrograms.v
theories/PropImplicit.v
theories/PropCheckDer.v
theories/Located.v
theories/SpecLocated.v
theories/PropLocated.v
theories/PropPatch.v
theories/PropEdit.v
theories/PropOidMatch.v
theories/PropOptionalEnum.v
