-Q theories Verif
theories/Base.v
theories/Str.v
theories/Grid.v
theories/Node.v
theories/Focus.v
theories/Edit.v
theories/Caret.v
theories/Autocomplete.v
theories/Editor.v
theories/Rules.v
theories/Spec.v
theories/BaseFacts.v
theories/TreeFacts.v
theories/OrderFacts.v
theories/EditFacts.v
theories/SpecEdit.v
theories/TreeProofs.v
theories/Samples.v
theories/PropsTree.v
theories/SpecMove.v
theories/MoveFacts.v
theories/MoveProofs.v
theories/PropsMove.v
theories/SpecGrid.v
theories/GridFacts.v
theories/GridExact.v
theories/SpecTrack.v
theories/TrackFacts.v
theories/PropsEdit.v
theories/SpecAuto.v
theories/AutoFacts.v
theories/MatchExact.v
theories/PopupFacts.v
theories/PropsAuto.v
theories/SpecEditor.v
theories/EditorFacts.v
theories/HistoryFacts.v
theories/OpFacts.v
theories/SpliceFacts.v
theories/TypingFacts.v
theories/PropsEditor.v
theories/SpecSafety.v
theories/SafetyFacts.v
theories/SafetyProofs.v
theories/PropsSafety.v
theories/SpecSelect.v
theories/SelectFacts.v
theories/PropsSelect.v
theories/Print.v
theories/PrintFacts.v
theories/NameMap.v
theories/NameMapFacts.v
theories/PropsText.v
theories/Json.v
theories/JsonFacts.v
theories/SpecText.v
theories/TextFacts.v
theories/PropsPaste.v
theories/Syntax.v
theories/Pratt.v
theories/Grammar.v
theories/SyntaxPrint.v
theories/SyntaxFind.v
theories/SpecSyntax.v
theories/SpecPratt.v
theories/ParseFacts.v
theories/ParseTotal.v
theories/FindFacts.v
theories/PrattFacts.v
theories/GrammarFacts.v
theories/TableFacts.v
theories/PropsParse.v
theories/Render.v
theories/Layout.v
theories/SpecRender.v
theories/SpecDom.v
theories/ShapeFacts.v
theories/RenderFacts.v
theories/SpacesFacts.v
theories/LayoutFacts.v
theories/ClickFacts.v
theories/DomFacts.v
theories/PropsRender.v
theories/FromMathML.v
theories/SpecImport.v
theories/ImportFacts.v
theories/PropsImport.v
theories/Component.v
theories/SpecComponent.v
theories/ComponentFacts.v
theories/ComponentProofs.v
theories/ComponentCheck.v
theories/PropsComponent.v
theories/SpecFormula.v
theories/FormulaFacts.v
theories/PropsFormula.v
theories/SpecSight.v
theories/SightFacts.v
theories/SpecCover.v
theories/CoverFacts.v
theories/PropsCover.v
theories/SpecAnswer.v
theories/AnswerFacts.v
theories/PropsAnswer.v
theories/PropsSight.v
theories/PropsAll.v
theories/Viewport.v
theories/SpecView.v
theories/SpecClick.v
theories/ViewFacts.v
theories/ClosestFacts.v
theories/PropsView.v
theories/Overlay.v
theories/PropsOverlay.v
theories/Utils.v
theories/PropsUtils.v
theories/SpecMathML.v
theories/MeansFacts.v
theories/WrittenFacts.v
theories/PropsMathML.v
theories/SpecPage.v
theories/PageFacts.v
theories/PropsPage.v
theories/Greedy.v
theories/PropsGreedy.v
theories/SpecPicture.v
theories/PictureFacts.v
theories/PropsPicture.v
theories/SpecJson.v
theories/JsonGrammarFacts.v
theories/PropsJson.v
theories/SpecEvent.v
theories/EventFacts.v
theories/PropsEvent.v
theories/Cost.v
theories/CostFacts.v
theories/CostCases.v
theories/CostBound.v
theories/CostLinear.v
theories/PropsCost.v
theories/Modules.v
theories/SpecModules.v
theories/ModulesFacts.v
theories/LibraryFacts.v
theories/ModulePopup.v
theories/PropsModules.v
theories/Conformance.v
theories/SpecEffort.v
theories/FormulaCost.v
theories/PropsEffort.v
theories/SpecReread.v
theories/RereadFacts.v
theories/PropsReread.v
theories/Startup.v
theories/SpecStartup.v
theories/DemoPage.v
theories/StartupFacts.v
theories/PropsStartup.v
theories/SpecRemove.v
theories/RemoveFacts.v
theories/SpecLeave.v
theories/LeaveFacts.v
theories/HoldFacts.v
theories/PropsRemove.v
theories/SpecPlace.v
theories/PlaceFacts.v
theories/PropsPlace.v
theories/PropsLeave.v
theories/SpecField.v
theories/FieldFacts.v
theories/PropsField.v
theories/SpecPageField.v
theories/PageFieldFacts.v
theories/PropsPageField.v
theories/SpecStray.v
theories/StrayFacts.v
theories/PropsStray.v
theories/DebugView.v
theories/PropsDebug.v
theories/SpecPopup.v
theories/PopupExact.v
theories/PropsPopup.v
theories/SpecPlain.v
theories/PlainFacts.v
theories/PropsPlain.v
theories/SpecExact.v
theories/ExactFacts.v
theories/PropsExact.v
theories/SpecTyped.v
theories/PropsTyped.v
theories/SpecWorks.v
theories/PropsWorks.v
theories/SpecSurvive.v
theories/PropsSurvive.v
theories/SpecLost.v
theories/PropsLost.v
theories/SpecContent.v
theories/ContentFacts.v
theories/PropsContent.v
theories/HitFacts.v
theories/PropsHit.v
theories/SpecEnter.v
theories/EnterFacts.v
theories/EnterSteps.v
theories/PropsEnter.v
theories/EnterPage.v
theories/PropsEnterPage.v
theories/SpecScreen.v
theories/ScreenFacts.v
theories/PropsScreen.v
theories/SpecTokenEnd.v
theories/TokenEnd.v
theories/PropsDrawn.v
theories/PropsMouse.v
theories/SpecNet.v
theories/PropsNet.v
theories/PropsNetPage.v
theories/SpecLocal.v
theories/LocalFacts.v
theories/LocalDraw.v
theories/PropsLocal.v
theories/PropsUndoPage.v
theories/PropsUndoCaret.v
